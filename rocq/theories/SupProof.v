(** Proofs: sums over the pairs of a larger cell. *)
From Coq Require Import List Arith ZArith Reals Bool Lia Lra Permutation.
From Verif Require Import Base RSum MathModel MetricModel MetricSpec MetricProof SphereModel SphereSpec SphereProof PdfModel PdfSpec PdfProof PdfGeo PdfSum PdfPeak PdfPhase PdfFft PdfTotal RelSpec RelProof SupSpec.
Import ListNotations.
Local Open Scope R_scope.

(** ** lists *)
Lemma nodup_prod {A B} (l : list A) (l' : list B) : NoDup l -> NoDup l' -> NoDup (list_prod l l').
Proof.
  intros N N'. induction N as [|a l H N IH]; cbn. constructor. assert (X : NoDup (map (fun y => (a, y)) l')) by (apply inj_nodup; auto; intros x y _ _ E; injection E; auto).
  assert (Y : forall x, In x (map (fun y => (a, y)) l') -> ~ In x (list_prod l l')). { intros [u v] I J. apply in_map_iff in I. destruct I as (y & E & _). injection E as -> _. apply in_prod_iff in J. tauto. }
  revert X Y. generalize (map (fun y => (a, y)) l'). intros L X Y. induction X as [|x L HX X IHX]; cbn; auto. constructor.
  - rewrite in_app_iff. intros [I|I]; auto. apply (Y x); cbn; auto.
  - apply IHX. intros; apply Y; cbn; auto.
Qed.
Lemma upto_in n z : In z (upto n) <-> (0 <= z < n)%Z.
Proof.
  unfold upto. rewrite in_map_iff. split. intros (x & <- & I). apply in_seq in I. lia. intros H. exists (Z.to_nat z). split. lia. apply in_seq. lia.
Qed.
Lemma upto_nodup n : NoDup (upto n). Proof. apply inj_nodup. intros; lia. apply seq_NoDup. Qed.
Lemma upto_len n : length (upto n) = Z.to_nat n. Proof. unfold upto. rewrite map_length, seq_length. auto. Qed.
Lemma cells_nodup k : NoDup (cells k). Proof. repeat apply nodup_prod; apply upto_nodup. Qed.
Lemma cells_in k o : In o (cells k) <-> cell_in k o.
Proof.
  unfold cells, trip. destruct o as [[a b] c]. rewrite !in_prod_iff, !upto_in. unfold cell_in. split.
  - intros ((H0 & H1) & H2) [|[|[|j]]] Hj; cbn; auto; lia.
  - intros H. split; [split|]; [apply (H 0%nat)|apply (H 1%nat)|apply (H 2%nat)]; lia.
Qed.
Lemma cells_len k : (forall j, (j < 3)%nat -> (1 <= comp k j)%Z) -> INR (length (cells k)) = IZR (comp k 0 * comp k 1 * comp k 2).
Proof.
  intros H. unfold cells, trip. rewrite !prod_length, !upto_len, !mult_INR, !INR_IZR_INZ, !Z2Nat.id, !mult_IZR; auto; [apply (Z.le_trans _ 1)|apply (Z.le_trans _ 1)|apply (Z.le_trans _ 1)]; try lia; apply H; lia.
Qed.
Lemma lsum_prod_fst {A B} (f : A -> R) (l : list A) (l' : list B) : lsum (fun x => f (fst x)) (list_prod l l') = INR (length l') * lsum f l.
Proof.
  induction l as [|a l IH]. cbn. lra. cbn [list_prod]. rewrite lsum_app, IH, PdfSum.lsum_map. cbn [fst]. rewrite PdfSum.lsum_cons. rewrite Rmult_plus_distr_l. f_equal.
  clear. induction l' as [|b l' IH]. cbn. lra. rewrite PdfSum.lsum_cons, IH. cbn [length]. rewrite S_INR. ring.
Qed.

Lemma trip_eq (s t : trip) : (forall j, (j < 3)%nat -> comp s j = comp t j) -> s = t.
Proof. intros E. destruct s as [[a b] c], t as [[a' b'] c']. pose proof (E 0%nat ltac:(lia)). pose proof (E 1%nat ltac:(lia)). pose proof (E 2%nat ltac:(lia)). cbn in *. congruence. Qed.

Lemma kpos_ k (K1 : forall j, (j < 3)%nat -> (1 <= comp k j)%Z) j : (j < 3)%nat -> 0 < IZR (comp k j). Proof. intros H. apply IZR_lt. specialize (K1 j H). lia. Qed.
Lemma Kpos_ k (K1 : forall j, (j < 3)%nat -> (1 <= comp k j)%Z) : 0 < IZR (comp k 0 * comp k 1 * comp k 2).
Proof. rewrite !mult_IZR. pose proof (kpos_ k K1 0 ltac:(lia)). pose proof (kpos_ k K1 1 ltac:(lia)). pose proof (kpos_ k K1 2 ltac:(lia)). repeat apply Rmult_lt_0_compat; auto. Qed.

Section Super.
Variables (d : cdata) (e : centry) (k : trip) (l : list catom) (de' : cderived) (gi gj : nat -> bool) (m : nat -> nat) (o : nat -> trip) (g : Z).
Let p := en_ph e.
Let p' := recelled k p l.
Let e' := mkEnt p' de' gi gj.
Let n := natoms p.
Let n' := natoms p'.
Let K := IZR (comp k 0 * comp k 1 * comp k 2).
Hypothesis K1 : forall j, (j < 3)%nat -> (1 <= comp k j)%Z.
Hypothesis M : forall x, (x < n')%nat -> (m x < n)%nat /\ cell_in k (o x) /\ copy_of k (cp_icc p) (o x) (atom_no p (m x)) (atom_no p' x).
Hypothesis SUR : forall i c, (i < n)%nat -> cell_in k c -> exists x, (x < n')%nat /\ m x = i /\ o x = c.
Hypothesis INJ : forall x y, (x < n')%nat -> (y < n')%nat -> m x = m y -> o x = o y -> x = y.
Hypothesis FL : forall x, (x < n')%nat -> gi x = en_igni e (m x) /\ gj x = en_ignj e (m x).
Hypothesis DET : det33 (metric (cp_a0 p) (cp_win p)) <> 0.

Let kpos := kpos_ k K1.
Let K_pos : 0 < K := Kpos_ k K1.

(** ** sums over atoms *)
Lemma sum_sites (F : nat -> R) : rsum n' (fun x => F (m x)) = K * rsum n F.
Proof.
  unfold K. rewrite <- (cells_len k K1), <- !lsum_seq, <- lsum_prod_fst. transitivity (lsum (fun x : nat * trip => F (fst x)) (map (fun x => (m x, o x)) (seq 0 n'))).
  - rewrite PdfSum.lsum_map. reflexivity.
  - apply RelProof.lsum_perm. apply NoDup_Permutation.
    + apply inj_nodup; [|apply seq_NoDup]. intros x y Hx Hy E. apply in_seq in Hx, Hy. injection E as E1 E2. apply INJ; auto; lia.
    + apply nodup_prod. apply seq_NoDup. apply cells_nodup.
    + intros [i c]. rewrite in_map_iff, in_prod_iff, in_seq, cells_in. split.
      * intros (x & E & Hx). apply in_seq in Hx. injection E as <- <-. destruct (M x ltac:(lia)) as (A & B & _). split; auto. lia.
      * intros (Hi & Hc). destruct (SUR i c ltac:(lia) Hc) as (x & Hx & <- & <-). exists x. split; auto. apply in_seq. lia.
Qed.
Lemma sup_occ : occ_sum p' = K * occ_sum p.
Proof.
  unfold occ_sum. fold n n'. rewrite <- (sum_sites (fun i => at_occ (atom_no p i))). apply rsum_ext. intros x Hx. apply M; auto.
Qed.
Lemma sup_mean : occ_sum p <> 0 -> mean_sf d p' = mean_sf d p.
Proof.
  intros NZ. unfold mean_sf. rewrite sup_occ. fold n n'. replace (rsum n' _) with (K * rsum n (fun i => at_occ (atom_no p i) * at_sf (atom_no p i) (cd_type d))).
  - pose proof K_pos. field. split; lra.
  - rewrite <- (sum_sites (fun i => at_occ (atom_no p i) * at_sf (atom_no p i) (cd_type d))). apply rsum_ext. intros x Hx. destruct (M x Hx) as (_ & _ & _ & -> & -> & _). auto.
Qed.
Lemma sup_weight x : occ_sum p <> 0 -> (x < n')%nat -> weight_no d p' x = weight_no d p (m x).
Proof. intros NZ Hx. unfold weight_no. rewrite sup_mean by auto. destruct (M x Hx) as (_ & _ & _ & -> & _). auto. Qed.
Lemma sup_counted x y : (x < n')%nat -> (y < n')%nat -> counted gi gj x y = counted (en_igni e) (en_ignj e) (m x) (m y).
Proof. intros Hx Hy. unfold counted. destruct (FL x Hx) as (-> & ->), (FL y Hy) as (-> & ->). reflexivity. Qed.
Lemma sup_share : occ_sum p <> 0 -> rsum n (weight_no d p) <> 0 -> counted_share d p' gi gj = counted_share d p (en_igni e) (en_ignj e).
Proof.
  intros NZ W0. unfold counted_share. fold n n'.
  assert (E : rsum n' (weight_no d p') = K * rsum n (weight_no d p)). { rewrite <- sum_sites. apply rsum_ext. intros; apply sup_weight; auto. } rewrite E.
  set (f i j := if counted (en_igni e) (en_ignj e) i j then weight_no d p i * weight_no d p j else 0).
  replace (rsum n' _) with (K * (K * rsum n (fun i => rsum n (f i)))). { pose proof K_pos. match goal with |- _ = rsum n ?F / _ => change F with (fun i => rsum n (f i)) end. field. split; auto. lra. }
  rewrite <- (sum_sites (fun i => rsum n (f i))), <- rsum_scal. apply rsum_ext. intros x Hx. rewrite <- (sum_sites (f (m x))). apply rsum_ext. intros y Hy. unfold f. rewrite sup_counted, !sup_weight; auto.
Qed.

(** ** geometry *)
Lemma sup_metric i j : (i < 3)%nat -> (j < 3)%nat -> metric (cp_a0 p') (cp_win p') i j = IZR (comp k i) * IZR (comp k j) * metric (cp_a0 p) (cp_win p) i j.
Proof. intros Hi Hj. unfold metric. cbn [p' recelled cp_a0 cp_win]. destruct (Nat.eqb_spec i j) as [->|]; ring. Qed.
Lemma sup_det : det33 (metric (cp_a0 p') (cp_win p')) = K * K * det33 (metric (cp_a0 p) (cp_win p)).
Proof. unfold det33. rewrite !sup_metric by lia. unfold K. rewrite !mult_IZR. ring. Qed.
Lemma sup_density : density p' = density p.
Proof.
  unfold density. rewrite sup_occ, sup_det. pose proof K_pos. rewrite sqrt_mult_alt by nra. rewrite sqrt_square by lra. change (cp_icc p') with (cp_icc p). unfold Rdiv. rewrite !Rinv_mult.
  generalize (/ sqrt (det33 (metric (cp_a0 p) (cp_win p)))) (/ IZR (cp_icc p 0 * cp_icc p 1 * cp_icc p 2)). intros a b. field. lra.
Qed.
Lemma sup_rm j : (j < 3)%nat -> sqrt (rmetric (cp_a0 p') (cp_win p') j j) = sqrt (rmetric (cp_a0 p) (cp_win p) j j) / IZR (comp k j).
Proof.
  intros Hj. pose proof (kpos 0 ltac:(lia)). pose proof (kpos 1 ltac:(lia)). pose proof (kpos 2 ltac:(lia)). pose proof (kpos j Hj) as Pj.
  rewrite <- (sqrt_square (IZR (comp k j))) by lra. rewrite <- sqrt_div_alt by nra. f_equal. unfold rmetric. rewrite sup_det. fold p. generalize DET. generalize (det33 (metric (cp_a0 p) (cp_win p))). intros D ND.
  destruct j as [|[|[|j]]]; [| | |lia]; cbn [Nat.add Nat.modulo Nat.divmod fst snd Nat.sub]; rewrite !sup_metric by lia; unfold K; rewrite !mult_IZR; field; repeat split; lra.
Qed.
Section Vec.
Variables h h' : v3.
Hypothesis H : forall j, (j < 3)%nat -> h j = IZR (comp k j) * h' j.
Lemma sup_len : length_of p' h' = length_of p h.
Proof. unfold length_of, dot33. rewrite !sup_metric, !H by lia. f_equal. ring. Qed.
Lemma sup_msd a b a' b' : at_u a' = at_u a -> at_u b' = at_u b -> msd p' a' b' h' = msd p a b h.
Proof.
  intros U1 U2. unfold msd. rewrite U1, U2, sup_len, !sup_rm by lia. rewrite !sup_metric, !H by lia. pose proof (kpos 0 ltac:(lia)). pose proof (kpos 1 ltac:(lia)). pose proof (kpos 2 ltac:(lia)).
  unfold Rdiv. generalize (/ length_of p h). intros L.
  assert (E : forall s c z w, 0 < c -> s * / c * (c * z) * w = s * z * w) by (intros; field; lra).
  f_equal; [f_equal; [f_equal; [f_equal; [f_equal|]|]|]|]; f_equal; f_equal; field; repeat split; lra.
Qed.
Lemma sup_width a b a' b' : at_u a' = at_u a -> at_u b' = at_u b -> width d p' a' b' h' = width d p a b h.
Proof. intros U1 U2. unfold width. rewrite sup_len, (sup_msd a b a' b') by auto. reflexivity. Qed.
End Vec.

(** ** pairs *)
Definition tau (x y : nat) (t : trip) : trip :=
  (comp (o y) 0 - comp (o x) 0 + comp t 0 * comp k 0, comp (o y) 1 - comp (o x) 1 + comp t 1 * comp k 1, comp (o y) 2 - comp (o x) 2 + comp t 2 * comp k 2)%Z.
Lemma sup_sep x y t : (x < n')%nat -> (y < n')%nat -> forall j, (j < 3)%nat ->
  sep p (atom_no p (m x)) (atom_no p (m y)) (tau x y t) j = IZR (comp k j) * sep p' (atom_no p' x) (atom_no p' y) t j.
Proof.
  intros Hx Hy j Hj. destruct (M x Hx) as (_ & _ & _ & _ & _ & Px), (M y Hy) as (_ & _ & _ & _ & _ & Py). pose proof (kpos j Hj).
  destruct t as [[a b] c]. unfold sep, tau. change (cp_icc p') with (cp_icc p).
  destruct j as [|[|[|j]]]; [| | |lia]; cbn [vec3]; rewrite Px, Py by lia; cbn [comp]; rewrite plus_IZR, minus_IZR, mult_IZR; field; lra.
Qed.
Lemma sup_value x y t : occ_sum p <> 0 -> (x < n')%nat -> (y < n')%nat -> value d e' g (x, y, t) = value d e g (m x, m y, tau x y t).
Proof.
  intros NZ Hx Hy. destruct (M x Hx) as (_ & _ & Ux & _ & Ox & _), (M y Hy) as (_ & _ & Uy & _ & Oy & _). pose proof (sup_sep x y t Hx Hy) as S.
  unfold value. cbn [e' en_ph]. fold p.
  assert (C : contributes d p' (atom_no p' x) (atom_no p' y) t g <-> contributes d p (atom_no p (m x)) (atom_no p (m y)) (tau x y t) g).
  { unfold contributes. rewrite (sup_len _ _ S), (sup_msd _ _ S _ _ _ _ Ux Uy), (sup_width _ _ S _ _ _ _ Ux Uy). reflexivity. }
  assert (P : pair_height d p' (atom_no p' x) (atom_no p' y) t g = pair_height d p (atom_no p (m x)) (atom_no p (m y)) (tau x y t) g).
  { unfold pair_height. rewrite (sup_len _ _ S), (sup_width _ _ S _ _ _ _ Ux Uy). reflexivity. }
  rewrite P, !sup_weight, Ox, Oy by auto.
  destruct (contributes_dec d p' _ _ _ _), (contributes_dec d p _ _ _ _); tauto.
Qed.
Lemma sup_pair x y t : (x < n')%nat -> (y < n')%nat -> (is_pair d e' (x, y, t) <-> is_pair d e (m x, m y, tau x y t)).
Proof.
  intros Hx Hy. unfold is_pair. cbn [e' en_ph en_igni en_ignj]. fold p n n'. rewrite sup_counted, (sup_len _ _ (sup_sep x y t Hx Hy)) by auto.
  pose proof (proj1 (M x Hx)). pose proof (proj1 (M y Hy)). tauto.
Qed.
Lemma tau_comp x y t j : (j < 3)%nat -> comp (tau x y t) j = (comp (o y) j - comp (o x) j + comp t j * comp k j)%Z.
Proof. intros Hj. destruct j as [|[|[|j]]]; [| | |lia]; reflexivity. Qed.
Variables (W W' : list pairT).
Hypothesis (C : complete e) (C' : complete e') (PL : pair_list d e W) (PL' : pair_list d e' W').
Lemma sup_sums : occ_sum p <> 0 -> lsum (value d e' g) W' = K * lsum (value d e g) W.
Proof.
  intros NZ. pose proof (all_pairs d e W C PL) as A. pose proof (all_pairs d e' W' C' PL') as A'.
  set (phi := fun w : pairT => let '(x, y, t) := w in ((m x, m y, tau x y t), o x)).
  transitivity (lsum (fun w => value d e g (fst w)) (map phi W')).
  - rewrite PdfSum.lsum_map. apply lsum_ext. intros [[x y] t] I. apply A' in I. destruct I as (Hx & Hy & _). cbn [phi fst]. apply sup_value; auto.
  - unfold K. rewrite <- (cells_len k K1), <- lsum_prod_fst. apply RelProof.lsum_perm. apply NoDup_Permutation.
    + apply inj_nodup; [|apply PL']. intros [[x y] t] [[x2 y2] t2] I I2 E. apply A' in I, I2. destruct I as (Hx & Hy & _), I2 as (Hx2 & Hy2 & _). cbn [phi] in E. injection E as E1 E2 E3 E4.
      cbn [e' en_ph] in *. fold n' in Hx, Hy, Hx2, Hy2. assert (X : x = x2) by (apply INJ; auto). subst x2.
      assert (Q : forall j, (j < 3)%nat -> comp (o y) j = comp (o y2) j /\ comp t j = comp t2 j).
      { intros j Hj. assert (T : comp (tau x y t) j = comp (tau x y2 t2) j) by (unfold tau; destruct j as [|[|[|j]]]; cbn [comp]; auto; lia). rewrite !tau_comp in T by auto.
        destruct (M y Hy) as (_ & B1 & _), (M y2 Hy2) as (_ & B2 & _). specialize (B1 j Hj). specialize (B2 j Hj). assert (comp t j = comp t2 j) by nia. split; auto. nia. }
      assert (Y : y = y2). { apply INJ; auto. apply trip_eq. intros j Hj. apply Q; auto. } subst y2. repeat f_equal. apply trip_eq. intros j Hj. apply Q; auto.
    + apply nodup_prod. apply PL. apply cells_nodup.
    + intros [[[i j] t] c]. rewrite in_map_iff, in_prod_iff, cells_in. split.
      * intros ([[x y] s] & E & I). apply A' in I. pose proof I as (Hx & Hy & _). cbn [phi] in E. injection E as <- <- <- <-. split; [|apply M; auto]. apply A. apply sup_pair; auto.
      * intros (I & Hc). apply A in I. pose proof I as (Hi & Hj & _). fold p n in Hi, Hj. destruct (SUR i c Hi Hc) as (x & Hx & E1 & E2).
        set (r := (((comp t 0 + comp c 0) mod comp k 0, (comp t 1 + comp c 1) mod comp k 1, (comp t 2 + comp c 2) mod comp k 2)%Z : trip)).
        set (q := (((comp t 0 + comp c 0) / comp k 0, (comp t 1 + comp c 1) / comp k 1, (comp t 2 + comp c 2) / comp k 2)%Z : trip)).
        destruct (SUR j r Hj) as (y & Hy & E3 & E4). { intros [|[|[|a]]] Ha; try lia; cbn [comp r]; apply Z.mod_pos_bound; [pose proof (K1 0%nat ltac:(lia))|pose proof (K1 1%nat ltac:(lia))|pose proof (K1 2%nat ltac:(lia))]; lia. }
        assert (T : tau x y q = t).
        { apply trip_eq. intros a Ha. rewrite tau_comp by auto. rewrite E2, E4. pose proof (K1 a Ha) as KA.
          destruct a as [|[|[|a]]]; [| | |lia]; cbn [comp r q]; [pose proof (Z.div_mod (comp t 0 + comp c 0) (comp k 0))|pose proof (Z.div_mod (comp t 1 + comp c 1) (comp k 1))|pose proof (Z.div_mod (comp t 2 + comp c 2) (comp k 2))]; nia. }
        exists (x, y, q). split. { cbn [phi]. rewrite T, E1, E2, E3. reflexivity. } apply A'. apply sup_pair; auto. rewrite T, E1, E3. exact I.
Qed.
Lemma sup_pdf V V' : occ_sum p <> 0 -> rsum n (weight_no d p) <> 0 -> phase_pdf d e W g V -> phase_pdf d e' W' g V' -> V' = V.
Proof.
  intros NZ NW (s & S & ->) (s' & S' & ->). apply radial_value in S. apply radial_value in S'. cbn [e' en_ph en_igni en_ignj]. fold p. rewrite S, S', sup_sums, sup_occ, sup_density, sup_share by auto.
  change (envelope d p') with (envelope d p). f_equal. f_equal. pose proof K_pos. unfold Rdiv. rewrite !Rinv_mult. generalize (/ grid d g) (/ occ_sum p). intros. field. lra.
Qed.
End Super.
