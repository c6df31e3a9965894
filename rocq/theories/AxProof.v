(** Proofs: sums over pairs with the axes named differently. *)
From Coq Require Import List Arith ZArith Reals Bool Lia Lra Permutation.
From Verif Require Import Base RSum MathModel MetricModel MetricSpec MetricProof SphereModel SphereSpec SphereProof PdfModel PdfSpec PdfProof PdfGeo PdfSum PdfPeak PdfPhase PdfFft PdfTotal RelSpec RelProof SupSpec SupProof AxSpec.
Import ListNotations.
Local Open Scope R_scope.

Lemma naming_cases s : naming s ->
  (s 0 = 0 /\ s 1 = 1 /\ s 2 = 2)%nat \/ (s 0 = 1 /\ s 1 = 2 /\ s 2 = 0)%nat \/ (s 0 = 2 /\ s 1 = 0 /\ s 2 = 1)%nat \/
  (s 0 = 1 /\ s 1 = 0 /\ s 2 = 2)%nat \/ (s 0 = 0 /\ s 1 = 2 /\ s 2 = 1)%nat \/ (s 0 = 2 /\ s 1 = 1 /\ s 2 = 0)%nat.
Proof. intros [E|[E|[E|[E|[E|[E|[]]]]]]]; injection E as <- <- <-; tauto. Qed.
Ltac six H := destruct (naming_cases _ H) as [(?S0 & ?S1 & ?S2)|[(?S0 & ?S1 & ?S2)|[(?S0 & ?S1 & ?S2)|[(?S0 & ?S1 & ?S2)|[(?S0 & ?S1 & ?S2)|(?S0 & ?S1 & ?S2)]]]]].
Lemma naming_lt s : naming s -> forall j, (j < 3)%nat -> (s j < 3)%nat.
Proof. intros H j Hj. six H; destruct j as [|[|[|j]]]; lia. Qed.

Lemma f2_len {A B} (P : A -> B -> Prop) l l' : Forall2 P l l' -> length l' = length l.
Proof. intros F. induction F; cbn; auto. Qed.
Lemma f2_nth {A B} (P : A -> B -> Prop) l l' a b : Forall2 P l l' -> forall i, (i < length l)%nat -> P (nth i l a) (nth i l' b).
Proof. intros F. induction F as [|x y l l' H F IH]; intros i Hi; cbn in Hi. lia. destruct i; cbn; auto. apply IH. lia. Qed.

Section Axes.
Variables (d : cdata) (e : centry) (s : nat -> nat) (l : list catom) (de' : cderived) (gi gj : nat -> bool) (g : Z).
Let p := en_ph e.
Let p' := mkCp (fun j => cp_a0 p (s j)) (fun j => cp_win p (s j)) (fun j => cp_icc p (s j)) l (cp_delta2 p) (cp_delta1 p) (cp_pscale p) (cp_spd p) (cp_stepcut p) (cp_sratio p) (cp_rcut p).
Let e' := mkEnt p' de' gi gj.
Hypothesis NS : naming s.
Hypothesis AT : Forall2 (renamed_atom s) (cp_atoms p) l.
Hypothesis FL : forall i, (i < natoms p)%nat -> gi i = en_igni e i /\ gj i = en_ignj e i.

Lemma ax_n : natoms p' = natoms p.
Proof. exact (f2_len _ _ _ AT). Qed.
Lemma ax_atom i : (i < natoms p)%nat -> renamed_atom s (atom_no p i) (atom_no p' i).
Proof. exact (f2_nth _ _ _ no_atom no_atom AT i). Qed.
Lemma ax_occ : occ_sum p' = occ_sum p.
Proof. unfold occ_sum. rewrite ax_n. apply rsum_ext. intros i Hi. apply ax_atom; auto. Qed.
Lemma ax_mean : mean_sf d p' = mean_sf d p.
Proof. unfold mean_sf. rewrite ax_occ, ax_n. f_equal. apply rsum_ext. intros i Hi. destruct (ax_atom i Hi) as (_ & _ & -> & ->). auto. Qed.
Lemma ax_weight i : (i < natoms p)%nat -> weight_no d p' i = weight_no d p i.
Proof. intros Hi. unfold weight_no. rewrite ax_mean. destruct (ax_atom i Hi) as (_ & _ & _ & ->). auto. Qed.
Lemma ax_counted i j : (i < natoms p)%nat -> (j < natoms p)%nat -> counted gi gj i j = counted (en_igni e) (en_ignj e) i j.
Proof. intros Hi Hj. unfold counted. destruct (FL i Hi) as (-> & ->), (FL j Hj) as (-> & ->). auto. Qed.
Lemma ax_share : counted_share d p' gi gj = counted_share d p (en_igni e) (en_ignj e).
Proof.
  unfold counted_share. rewrite ax_n. rewrite (rsum_ext _ (weight_no d p') (weight_no d p)) by (intros; apply ax_weight; auto). f_equal.
  apply rsum_ext. intros i Hi. apply rsum_ext. intros j Hj. rewrite ax_counted, !ax_weight; auto.
Qed.

Lemma ax_metric i j : (i < 3)%nat -> (j < 3)%nat -> metric (cp_a0 p') (cp_win p') i j = metric (cp_a0 p) (cp_win p) (s i) (s j).
Proof.
  intros Hi Hj. unfold metric, cell_cos. cbn [p' cp_a0 cp_win]. six NS; destruct i as [|[|[|i]]], j as [|[|[|j]]]; try lia; cbn [Nat.eqb Nat.sub Nat.add]; rewrite ?S0, ?S1, ?S2; cbn [Nat.eqb Nat.sub Nat.add]; reflexivity.
Qed.
Lemma ax_det : det33 (metric (cp_a0 p') (cp_win p')) = det33 (metric (cp_a0 p) (cp_win p)).
Proof. unfold det33. rewrite !ax_metric by lia. six NS; rewrite S0, S1, S2; ring. Qed.
Lemma ax_density : density p' = density p.
Proof.
  unfold density. rewrite ax_occ, ax_det. f_equal. f_equal. f_equal. cbn [p' cp_icc]. six NS; rewrite S0, S1, S2; ring.
Qed.
Lemma ax_rm j : (j < 3)%nat -> rmetric (cp_a0 p') (cp_win p') j j = rmetric (cp_a0 p) (cp_win p) (s j) (s j).
Proof.
  intros Hj. unfold rmetric. rewrite ax_det. f_equal. destruct j as [|[|[|j]]]; [| | |lia]; cbn [Nat.add Nat.modulo Nat.divmod fst snd Nat.sub]; rewrite !ax_metric by lia;
  six NS; rewrite S0, S1, S2; cbn [Nat.add Nat.modulo Nat.divmod fst snd Nat.sub]; ring.
Qed.
Section Vec.
Variables h h' : v3.
Hypothesis H : forall j, (j < 3)%nat -> h' j = h (s j).
Lemma ax_len : length_of p' h' = length_of p h.
Proof. unfold length_of, dot33. rewrite !ax_metric, !H by lia. f_equal. six NS; rewrite S0, S1, S2; ring. Qed.
Lemma ax_msd a b a' b' : renamed_atom s a a' -> renamed_atom s b b' -> msd p' a' b' h' = msd p a b h.
Proof.
  intros (A1 & A2 & _) (B1 & B2 & _). unfold msd. rewrite ax_len, !ax_rm by lia. rewrite !ax_metric, !H by lia.
  destruct (A1 0%nat ltac:(lia)) as (_ & ->), (A1 1%nat ltac:(lia)) as (_ & ->), (A1 2%nat ltac:(lia)) as (_ & ->).
  destruct (B1 0%nat ltac:(lia)) as (_ & ->), (B1 1%nat ltac:(lia)) as (_ & ->), (B1 2%nat ltac:(lia)) as (_ & ->).
  pose proof (A2 0%nat 1%nat ltac:(lia) ltac:(lia)) as A3. pose proof (A2 0%nat 2%nat ltac:(lia) ltac:(lia)) as A4. pose proof (A2 1%nat 2%nat ltac:(lia) ltac:(lia)) as A5.
  pose proof (B2 0%nat 1%nat ltac:(lia) ltac:(lia)) as B3. pose proof (B2 0%nat 2%nat ltac:(lia) ltac:(lia)) as B4. pose proof (B2 1%nat 2%nat ltac:(lia) ltac:(lia)) as B5.
  unfold off in *. cbn [Nat.add] in A3, A4, A5, B3, B4, B5. rewrite A3, A4, A5, B3, B4, B5. unfold Rdiv. generalize (/ length_of p h). intros L.
  six NS; rewrite S0, S1, S2; cbn [Nat.add]; ring.
Qed.
Lemma ax_width a b a' b' : renamed_atom s a a' -> renamed_atom s b b' -> width d p' a' b' h' = width d p a b h.
Proof. intros A B. unfold width. rewrite ax_len, (ax_msd a b a' b') by auto. reflexivity. Qed.
End Vec.

Definition tperm (t : trip) : trip := (comp t (s 0), comp t (s 1), comp t (s 2)).
Definition tback (t : trip) : trip :=
  let f j := comp t (if (s 0 =? j)%nat then 0 else if (s 1 =? j)%nat then 1 else 2)%nat in (f 0, f 1, f 2)%nat.
Lemma perm_back t : tperm (tback t) = t.
Proof. destruct t as [[a b] c]. unfold tperm, tback. six NS; rewrite S0, S1, S2; reflexivity. Qed.
Lemma back_perm t : tback (tperm t) = t.
Proof. destruct t as [[a b] c]. unfold tperm, tback. six NS; rewrite S0, S1, S2; reflexivity. Qed.
Lemma ax_sep i k t : (i < natoms p)%nat -> (k < natoms p)%nat -> forall j, (j < 3)%nat -> sep p' (atom_no p' i) (atom_no p' k) (tperm t) j = sep p (atom_no p i) (atom_no p k) t (s j).
Proof.
  intros Hi Hk j Hj. destruct (ax_atom i Hi) as (A & _), (ax_atom k Hk) as (B & _). destruct t as [[a b] c]. unfold sep, tperm. cbn [p' cp_icc].
  six NS; destruct j as [|[|[|j]]]; try lia; cbn [vec3]; rewrite (proj1 (A _ Hj)), (proj1 (B _ Hj)), ?S0, ?S1, ?S2; cbn [comp vec3]; reflexivity.
Qed.
Lemma ax_value i k t : (i < natoms p)%nat -> (k < natoms p)%nat -> value d e' g (i, k, tperm t) = value d e g (i, k, t).
Proof.
  intros Hi Hk. pose proof (ax_atom i Hi) as Ai. pose proof (ax_atom k Hk) as Ak. pose proof (ax_sep i k t Hi Hk) as S.
  unfold value. cbn [e' en_ph]. fold p.
  assert (C : contributes d p' (atom_no p' i) (atom_no p' k) (tperm t) g <-> contributes d p (atom_no p i) (atom_no p k) t g).
  { unfold contributes. rewrite (ax_len _ _ S), (ax_msd _ _ S _ _ _ _ Ai Ak), (ax_width _ _ S _ _ _ _ Ai Ak). reflexivity. }
  assert (P : pair_height d p' (atom_no p' i) (atom_no p' k) (tperm t) g = pair_height d p (atom_no p i) (atom_no p k) t g).
  { unfold pair_height. rewrite (ax_len _ _ S), (ax_width _ _ S _ _ _ _ Ai Ak). reflexivity. }
  rewrite P, !ax_weight by auto. destruct Ai as (_ & _ & -> & _), Ak as (_ & _ & -> & _).
  destruct (contributes_dec d p' _ _ _ _), (contributes_dec d p _ _ _ _); tauto.
Qed.
Lemma ax_pair i k t : is_pair d e' (i, k, tperm t) <-> is_pair d e (i, k, t).
Proof.
  unfold is_pair. cbn [e' en_ph en_igni en_ignj]. fold p. rewrite ax_n. split; intros (Hi & Hk & H); split; auto; split; auto; revert H; rewrite ax_counted, (ax_len _ _ (ax_sep i k t Hi Hk)) by auto; auto.
Qed.
Variables (W W' : list pairT).
Hypothesis (C : complete e) (C' : complete e') (PL : pair_list d e W) (PL' : pair_list d e' W').
Lemma ax_sums : lsum (value d e' g) W' = lsum (value d e g) W.
Proof.
  pose proof (all_pairs d e W C PL) as A. pose proof (all_pairs d e' W' C' PL') as A'.
  transitivity (lsum (value d e' g) (map (fun w : pairT => (fst w, tperm (snd w))) W)).
  - apply RelProof.lsum_perm. apply NoDup_Permutation.
    + apply PL'. + apply inj_nodup; [|apply PL]. intros [x t] [y u] _ _ E. cbn in E. injection E as -> E0 E1 E2. f_equal. rewrite <- (back_perm t), <- (back_perm u). f_equal. unfold tperm. congruence.
    + intros [[i k] t]. rewrite in_map_iff, A'. split.
      * intros H. exists (i, k, tback t). split. cbn. rewrite perm_back. auto. apply A. apply ax_pair. rewrite perm_back. auto.
      * intros ([[i2 k2] t2] & E & H). cbn in E. injection E as <- <- <-. apply A in H. fold (tperm t2). apply ax_pair. auto.
  - rewrite PdfSum.lsum_map. apply lsum_ext. intros [[i k] t] H. apply A in H. destruct H as (Hi & Hk & _). apply ax_value; auto.
Qed.
Lemma ax_pdf V V' : phase_pdf d e W g V -> phase_pdf d e' W' g V' -> V' = V.
Proof.
  intros (x & S & ->) (x' & S' & ->). apply radial_value in S. apply radial_value in S'. cbn [e' en_ph en_igni en_ignj]. fold p. rewrite S, S', ax_sums, ax_occ, ax_density, ax_share.
  change (envelope d p') with (envelope d p). reflexivity.
Qed.
End Axes.
