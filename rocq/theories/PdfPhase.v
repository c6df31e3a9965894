(** One phase: the sum over pairs and the points of the PDF. *)
From Coq Require Import List Arith ZArith Reals Bool Lia Lra.
From Verif Require Import Base RSum MathModel MetricModel MetricSpec MetricProof SphereModel SphereSpec SphereProof PdfModel PdfSpec PdfProof PdfGeo PdfSum PdfPeak.
Import ListNotations.
Local Open Scope R_scope.

Lemma el_repeat x n g : (0 <= g < Z.of_nat n)%Z -> el (repeat x n) g = x.
Proof. intros H. unfold el. rewrite (nth_indep _ None x) by (rewrite repeat_length; lia). apply nth_repeat. Qed.

Section Phase.
Variables (d : cdata) (e : centry).
Hypothesis G : good_grid d.
Let p := en_ph e.
Let de := en_der e.
Hypothesis UTD : up_to_date e.
Hypothesis SP : sane_phase d p.
Let n := natoms p.
Let at_ i := atom_no p i.
Let w i := weight_no d p i.
Let N := Z.to_nat (idx d (calc_hi d) + 1).

Lemma lat_e : phase_lattice p = Ok de. Proof. exact UTD. Qed.
Lemma atoms_nz : cp_atoms p <> [].
Proof. intros E. destruct SP as (_ & _ & _ & O & _). apply O. unfold occ_sum, natoms. rewrite E. reflexivity. Qed.
Lemma rd_atom i : (i < n)%nat -> rd (cp_atoms p) i = Ok (at_ i).
Proof. intros H. unfold rd, at_, atom_no. rewrite (nth_error_nth' _ no_atom) by auto. reflexivity. Qed.

Lemma weights_ok : weights (cd_type d) (de_np de) (cp_atoms p) = map Some (map w (seq 0 n)).
Proof.
  unfold weights. rewrite (sum_nth (fun a => at_occ a * at_sf a (cd_type d))), (np_is p de lat_e).
  destruct SP as (_ & _ & _ & O & M & _). unfold ndiv at 2. destruct (Req_EM_T (occ_sum p) 0); [contradiction|].
  fold (natoms p). change (rsum (natoms p) (fun i => at_occ (nth i (cp_atoms p) no_atom) * at_sf (nth i (cp_atoms p) no_atom) (cd_type d)) / occ_sum p) with (mean_sf d p).
  rewrite map_map. apply (nth_ext _ _ None None). rewrite !map_length, seq_length. reflexivity.
  intros i Hi. rewrite map_length in Hi.
  rewrite (nth_indep _ None (ndiv (Some (at_sf no_atom (cd_type d))) (Some (mean_sf d p)))) by (rewrite map_length; auto).
  rewrite (map_nth (fun a => ndiv (Some (at_sf a (cd_type d))) (Some (mean_sf d p)))).
  rewrite (nth_indep _ None (Some (w 0%nat))) by (rewrite map_length, seq_length; auto).
  rewrite (map_nth (fun x => Some (w x))). rewrite seq_nth by auto. simpl.
  destruct (Req_EM_T (mean_sf d p) 0); [contradiction|]. reflexivity.
Qed.
Lemma nth_w i : (i < n)%nat -> nth i (map Some (map w (seq 0 n))) None = Some (w i).
Proof.
  intros H. rewrite map_map. rewrite (nth_indep _ None (Some (w 0%nat))) by (rewrite map_length, seq_length; auto).
  rewrite (map_nth (fun x => Some (w x))), seq_nth by auto. reflexivity.
Qed.
Lemma w_sum : rsum n w <> 0.
Proof.
  destruct SP as (_ & _ & _ & _ & M & S & _). unfold w, weight_no. fold n in S.
  assert (E : rsum n (fun i => at_sf (atom_no p i) (cd_type d) / mean_sf d p) = rsum n (fun i => at_sf (atom_no p i) (cd_type d)) / mean_sf d p).
  { unfold Rdiv. exact (rsum_scal_r n (/ mean_sf d p) (fun i => at_sf (atom_no p i) (cd_type d))). }
  rewrite E. unfold Rdiv. apply Rmult_integral_contrapositive_currified; auto. apply Rinv_neq_0_compat; auto.
Qed.
Lemma norm_ok : pair_norm (en_igni e) (en_ignj e) (map Some (map w (seq 0 n))) = Some (counted_share d p (en_igni e) (en_ignj e)).
Proof.
  pose proof (pair_norm_ok (en_igni e) (en_ignj e) (map w (seq 0 n))) as P. cbv zeta in P. rewrite map_length, seq_length in P.
  assert (E : forall i, (i < n)%nat -> nth i (map w (seq 0 n)) 0 = w i).
  { intros i Hi. rewrite (nth_indep _ 0 (w 0%nat)) by (rewrite map_length, seq_length; auto). rewrite map_nth, seq_nth by auto. reflexivity. }
  rewrite (rsum_ext n (fun i => nth i (map w (seq 0 n)) 0) w) in P by auto.
  rewrite P by apply w_sum. f_equal. unfold counted_share. fold n. f_equal.
  apply rsum_ext. intros i Hi. apply rsum_ext. intros j Hj. rewrite !E by auto. reflexivity.
Qed.

(** height of a pair at a point *)
Definition value (g : Z) (x : pairT) : R :=
  let '(i, j, t) := x in
  if contributes_dec d p (at_ i) (at_ j) t g then at_occ (at_ i) * w i * (at_occ (at_ j) * w j) * pair_height d p (at_ i) (at_ j) t g else 0.
Lemma value_term g x : pair_term d p g x (value g x).
Proof. destruct x as [[i j] t]. unfold pair_term, value. fold (at_ i) (at_ j) (w i) (w j). destruct (contributes_dec d p (at_ i) (at_ j) t g); split; auto; contradiction. Qed.
Lemma value_rev g i j t : value g (j, i, rev_t t) = value g (i, j, t).
Proof.
  unfold value. rewrite height_rev. destruct (contributes_dec d p (at_ j) (at_ i) (rev_t t) g) as [C|C], (contributes_dec d p (at_ i) (at_ j) t g) as [C'|C'];
    rewrite contributes_rev in C; try contradiction; ring.
Qed.

Let sepl i j t := length_of p (sep p (at_ i) (at_ j) t).
Definition pair_block (pts : list (Z * Z * Z)) (ij : nat * nat) : list pairT :=
  let (i, j) := ij in
  if counted (en_igni e) (en_ignj e) i j then
    flat_map (fun t => if in_reach_dec d (sepl i j t) then (if (i =? j)%nat then [(i, i, t)] else [(i, j, t); (j, i, rev_t t)]) else []) pts
  else [].
Definition pair_W (pts : list (Z * Z * Z)) : list pairT := flat_map (pair_block pts) (half_loop n).

Lemma msd_nn i j h : (i < n)%nat -> (j < n)%nat -> 0 <= msd p (at_ i) (at_ j) h.
Proof. intros. apply SP; auto. Qed.

(** ** what is summed *)
Lemma pair_loop pts i j ppp : (i < n)%nat -> (j < n)%nat -> counted (en_igni e) (en_ignj e) i j = true -> length ppp = N ->
  let (rmin2, rmax2) := dist_limits (calc_lo d) (calc_hi d) in
  exists q, ofold (fun ppp mno =>
      match pair_peak (cd_qbroad d) rmin2 rmax2 p (de_lat de) (Some (w i)) (Some (w j)) (at_ i) (at_ j) (negb (i =? j)%nat) mno with
      | None => Ok ppp
      | Some k => add_peak d (calc_lo d) (calc_hi d) (cp_stepcut p) ppp k
      end) pts ppp = Ok q /\ length q = N /\
    forall g, (0 <= g)%Z -> el q g = nadd (el ppp g)
      (Some (lsum (fun t => if in_reach_dec d (sepl i j t) then (if (i =? j)%nat then 1 else 2) * value g (i, j, t) else 0) pts)).
Proof.
  intros Hi Hj C L. pose proof (fun t => pair_peak_ok d p de G lat_e SP (at_ i) (at_ j) t (w i) (w j) (negb (i =? j)%nat) (msd_nn i j _ Hi Hj)) as PP.
  destruct (dist_limits (calc_lo d) (calc_hi d)) as [rmin2 rmax2].
  apply (add_loop d (Z * Z * Z) _ (fun t g => if in_reach_dec d (sepl i j t) then (if (i =? j)%nat then 1 else 2) * value g (i, j, t) else 0)); auto.
  intros t q _ Lq. rewrite PP. fold (sepl i j t). destruct (in_reach_dec d (sepl i j t)) as [I|I].
  2:{ exists q. split; auto. split; auto. intros. rewrite nadd_zero. auto. }
  destruct (has_peak_dec d p (at_ i) (at_ j) t) as [H|H].
  - destruct (add_peak_ok d G q p (sepl i j t) (width d p (at_ i) (at_ j) (sep p (at_ i) (at_ j) t))
      ((if negb (i =? j)%nat then 2 else 1) * (at_occ (at_ i) * w i * (at_occ (at_ j) * w j))) Lq) as (q' & E & L' & X).
    apply width_pos; auto. destruct I as [? ?]. lra.
    exists q'. split; auto. split; auto. intros g Hg. rewrite X by auto. f_equal. f_equal. unfold value.
    fold (sepl i j t). assert (CS := contributes_split d p (at_ i) (at_ j) t g).
    destruct (reaches_dec d p (sepl i j t) _ g) as [R1|R1], (contributes_dec d p (at_ i) (at_ j) t g) as [C'|C']; try (exfalso; tauto).
    + unfold pair_height. cbv zeta. fold (sepl i j t). destruct (i =? j)%nat; cbn [negb]; ring.
    + ring.
  - exists q. split; auto. split; auto. intros g Hg. unfold value. destruct (contributes_dec d p (at_ i) (at_ j) t g) as [C'|C'].
    exfalso. apply contributes_split in C'. tauto. rewrite Rmult_0_r, nadd_zero. auto.
Qed.

Lemma block_sum pts ij g : lsum (value g) (pair_block pts ij) =
  if counted (en_igni e) (en_ignj e) (fst ij) (snd ij) then lsum (fun t => if in_reach_dec d (sepl (fst ij) (snd ij) t) then (if (fst ij =? snd ij)%nat then 1 else 2) * value g (fst ij, snd ij, t) else 0) pts else 0.
Proof.
  destruct ij as [i j]. cbn [fst snd]. unfold pair_block. destruct (counted _ _ i j); [|reflexivity]. rewrite lsum_flat. apply lsum_ext. intros t _.
  destruct (in_reach_dec d (sepl i j t)); [|reflexivity]. destruct (Nat.eqb_spec i j) as [->|Ne].
  - rewrite lsum_cons, lsum_nil. ring.
  - rewrite !lsum_cons, lsum_nil, value_rev. ring.
Qed.

Definition sph_lo : R := Rmax (1 / 10) (calc_lo d - 1) - circum_diameter (de_lat de) (cp_atoms p).
Definition sph_hi : R := let h := calc_hi d + 1 + circum_diameter (de_lat de) (cp_atoms p) in
  if Rlt_dec 0 (cp_stepcut p) then Rmin h (cp_stepcut p + circum_diameter (de_lat de) (cp_atoms p)) else h.

Lemma phase_sums_ok fuel pts :
  points_in_sphere fuel sph_lo sph_hi (lp_make (cp_a0 p 0%nat * IZR (cp_icc p 0)) (cp_a0 p 1%nat * IZR (cp_icc p 1)) (cp_a0 p 2%nat * IZR (cp_icc p 2)) (cp_win p 0%nat) (cp_win p 1%nat) (cp_win p 2%nat)) = Ok pts ->
  exists ppp, phase_sums fuel d (calc_lo d) (calc_hi d) (idx d (calc_lo d)) (idx d (calc_hi d)) e = Ok (ppp, Some (counted_share d p (en_igni e) (en_ignj e))) /\
    length ppp = N /\ forall g, (0 <= g <= idx d (calc_hi d))%Z -> el ppp g = Some (lsum (value g) (pair_W pts)).
Proof.
  intros PTS. unfold phase_sums. fold p de. rewrite weights_ok, norm_ok.
  pose proof (ncmax_nn d G) as NC.
  destruct (Z.ltb_spec (idx d (calc_lo d)) 0); [lia|]. destruct (Z.ltb_spec (idx d (calc_hi d) + 1) (idx d (calc_lo d))); [lia|]. cbn [orb].
  pose proof (limits_sqrt (calc_lo d) (calc_hi d) (proj2 (calc_hi_nn d G))) as LS.
  pose proof (fun pts i j ppp => pair_loop pts i j ppp) as PL.
  destruct (dist_limits (calc_lo d) (calc_hi d)) as [rmin2 rmax2]. destruct LS as [-> ->].
  fold sph_lo. fold (sph_hi). unfold sph_hi in PTS. cbv zeta in PTS.
  match goal with |- context [points_in_sphere ?a ?b ?c ?d] => change (points_in_sphere a b c d) with (points_in_sphere fuel sph_lo sph_hi d) end.
  unfold sph_hi. cbv zeta. cbv beta. rewrite PTS. cbn [obind].
  fold N.
  match goal with |- context [ofold ?s (half_loop ?m) ?x] => destruct (add_loop d (nat * nat) s
    (fun ij g => if counted (en_igni e) (en_ignj e) (fst ij) (snd ij) then lsum (fun t => if in_reach_dec d (sepl (fst ij) (snd ij) t) then (if (fst ij =? snd ij)%nat then 1 else 2) * value g (fst ij, snd ij, t) else 0) pts else 0) (half_loop m) x) as (q & E & L & X) end.
  - apply repeat_length.
  - intros [i j] q H' Lq. apply half_in in H'. cbn [fst snd]. rewrite skip_counted. destruct (counted (en_igni e) (en_ignj e) i j) eqn:C; cbn [negb].
    + rewrite !rd_atom by (unfold n, natoms; lia). cbn [obind]. rewrite !nth_w by (unfold n, natoms; lia).
      apply PL; auto; unfold n, natoms; lia.
    + exists q. split; auto. split; auto. intros. rewrite nadd_zero. auto.
  - rewrite E. cbn [obind]. exists q. split; auto. split; auto. intros g Hg. rewrite X by lia. rewrite el_repeat by (unfold N; lia). cbn [nadd]. f_equal.
    rewrite Rplus_0_l. unfold pair_W. rewrite lsum_flat. apply lsum_ext. intros ij _. symmetry. apply block_sum.
Qed.

(** ** the pairs summed are the right ones *)
Lemma block_in pts ij x : In x (pair_block pts ij) <->
  counted (en_igni e) (en_ignj e) (fst ij) (snd ij) = true /\ exists t, In t pts /\ in_reach d (sepl (fst ij) (snd ij) t) /\ (x = (fst ij, snd ij, t) \/ (fst ij <> snd ij /\ x = (snd ij, fst ij, rev_t t))).
Proof.
  destruct ij as [i j]. cbn [fst snd]. unfold pair_block. destruct (counted _ _ i j); [|split; [intros []|intros [? _]; discriminate]].
  rewrite in_flat_map. split.
  - intros (t & T & H). split; auto. exists t. split; auto. destruct (in_reach_dec d (sepl i j t)); [|contradiction]. split; auto.
    destruct (Nat.eqb_spec i j); subst; simpl in H; intuition (subst; auto).
  - intros (_ & t & T & I & H). exists t. split; auto. destruct (in_reach_dec d (sepl i j t)); [|contradiction].
    destruct (Nat.eqb_spec i j); subst; simpl; intuition (subst; auto).
Qed.
Lemma W_nodup pts : NoDup pts -> NoDup (pair_W pts).
Proof.
  intros NP. apply nodup_flat_map. apply half_nodup.
  - intros [i j] _. unfold pair_block. destruct (counted _ _ i j); [|constructor]. apply nodup_flat_map; auto.
    + intros t _. destruct (in_reach_dec d (sepl i j t)); [|constructor]. destruct (Nat.eqb_spec i j). repeat constructor; auto.
      constructor. intros [E|[]]. inversion E; subst; contradiction. repeat constructor; auto.
    + intros a b x _ _ A B. destruct (in_reach_dec d (sepl i j a)); [|contradiction]. destruct (in_reach_dec d (sepl i j b)); [|contradiction].
      destruct (Nat.eqb_spec i j). destruct A as [A|[]], B as [B|[]]. congruence.
      destruct A as [A|[A|[]]], B as [B|[B|[]]]; try congruence.
      rewrite <- A in B. inversion B as [B']. rewrite <- (rev_rev a), <- (rev_rev b). congruence.
  - intros [i j] [i' j'] x Ha Hb A B. apply half_in in Ha, Hb. apply block_in in A, B. cbn [fst snd] in *.
    destruct A as (_ & t & _ & _ & A), B as (_ & t' & _ & _ & B).
    destruct A as [->|[? ->]], B as [B|[? B]]; inversion B; subst; auto; f_equal; lia.
Qed.
Lemma W_sound pts x : In x (pair_W pts) -> is_pair d e x.
Proof.
  unfold pair_W. rewrite in_flat_map. intros ([i j] & H & X). apply half_in in H. apply block_in in X. cbn [fst snd] in X. destruct X as (C & t & _ & I & [->|[_ ->]]); unfold is_pair; fold p; fold n.
  - repeat split; auto; try lia. all: apply I.
  - rewrite counted_sym. rewrite len_rev. repeat split; auto; try lia. all: apply I.
Qed.
Lemma W_has pts i j t : is_pair d e (i, j, t) -> (In t pts \/ (j < i)%nat) -> (In (rev_t t) pts \/ (i <= j)%nat) -> In (i, j, t) (pair_W pts).
Proof.
  intros (Hi & Hj & C & I) T1 T2. fold p in Hi, Hj, I. fold n in Hi, Hj. unfold pair_W. rewrite in_flat_map. destruct (le_lt_dec i j).
  - exists (i, j). split. apply half_in; lia. apply block_in. split; auto. exists t. split. destruct T1; auto; lia. split; auto.
  - exists (j, i). split. apply half_in; lia. apply block_in. cbn [fst snd]. rewrite counted_sym. split; auto. exists (rev_t t). split. destruct T2; auto; lia.
    split. unfold sepl. rewrite len_rev. exact I. right. split. lia. rewrite rev_rev. reflexivity.
Qed.
Lemma found_pair pts i j t : one_cell p -> (forall t, sph_lo <= length_of p (trans p t) < sph_hi -> In t pts) -> (i < n)%nat -> (j < n)%nat ->
  in_reach d (sepl i j t) -> below_stepcut p (sepl i j t) -> In t pts.
Proof.
  intros ONE F Hi Hj [I1 [I2 I3]] B. apply F.
  assert (C : length_of p (fun k => at_pos (at_ i) k - at_pos (at_ j) k) < circum_diameter (de_lat de) (cp_atoms p)).
  { apply (circum_bound p de lat_e (sp_cell d p SP) (sp_tiny d p SP)). apply atoms_nz. intros k Hk. apply ONE; auto. }
  pose proof (sep_trans_hi p de lat_e (sp_cell d p SP) (sp_tiny d p SP) (at_ i) (at_ j) t) as H1. fold (sepl i j t) in H1.
  pose proof (sep_trans_lo p de lat_e (sp_cell d p SP) (sp_tiny d p SP) (at_ i) (at_ j) t) as H2. fold (sepl i j t) in H2.
  unfold sph_lo, sph_hi. set (C0 := circum_diameter _ _) in *. cbv zeta. unfold below_stepcut in B.
  split. unfold Rmax. destruct (Rle_dec _ _); lra.
  destruct (Rlt_dec 0 (cp_stepcut p)) as [S|S]; [specialize (B S); unfold Rmin; destruct (Rle_dec _ _)|]; lra.
Qed.
Lemma W_pairs pts : NoDup pts -> (forall t, sph_lo <= length_of p (trans p t) < sph_hi -> In t pts) -> pair_list d e (pair_W pts).
Proof.
  intros NP F. split. apply W_nodup; auto. split. intros x. apply W_sound.
  intros ONE i j t P B. fold p in B, ONE. pose proof P as (Hi & Hj & C & I). fold p in Hi, Hj, I. fold n in Hi, Hj. apply W_has; auto.
  - left. apply (found_pair pts i j); auto.
  - left. apply (found_pair pts j i); auto; unfold sepl; rewrite len_rev; auto.
Qed.
(** lattice points beyond the sphere are not used *)
Lemma trans_rev t : length_of p (trans p (rev_t t)) = length_of p (trans p t).
Proof.
  apply (nrm_opp (metric (cp_a0 p) (cp_win p))). intros i Hi. destruct t as [[a b] c]. destruct i as [|[|[|i]]]; try lia; cbn; rewrite opp_IZR; ring.
Qed.
Lemma W_sphere pts R0 : (forall t, In t pts -> length_of p (trans p t) < R0) -> forall i j t, In (i, j, t) (pair_W pts) -> length_of p (trans p t) < R0.
Proof.
  intros F i j t. unfold pair_W. rewrite in_flat_map. intros ([a b] & _ & X). apply block_in in X. cbn [fst snd] in X. destruct X as (_ & t0 & I & _ & [E|[_ E]]); inversion E; subst; auto. rewrite trans_rev. auto.
Qed.
End Phase.
