(** The operations of one phase on the rows of derivatives. *)
From Coq Require Import List Arith ZArith Reals Bool Lia Lra.
From Verif Require Import Base RSum MathModel MetricModel MetricSpec MetricProof SphereModel SphereSpec SphereProof PdfModel PdfSpec PdfProof PdfGeo PdfSum PdfPeak PdfPhase PdfTotal LayoutModel LayoutSpec LayoutProof DerivModel DerivSpec DerivRow.
Import ListNotations.
Local Open Scope nat_scope.

(** variables changed by a pair, in the order of the code *)
Definition pair_vars (ip i j is : nat) : list rvar :=
  let b f := [AV ip i f; AV ip j f] in
  b (FPos 0) ++ b (FPos 1) ++ b (FPos 2) ++ b (FU 0) ++ b (FU 1) ++ b (FU 2) ++ b (FU 3) ++ b (FU 4) ++ b (FU 5) ++ b FOcc ++
  [PV ip (FA0 0); PV ip (FA0 1); PV ip (FA0 2); PV ip (FWin 0); PV ip (FWin 1); PV ip (FWin 2); PV ip FDelta2; PV ip FDelta1; PV ip FSratio; SV is FQbroad].
Definition pair_labs (ip i j is : nat) (p : cphase) qb ai aj rk r s sp a g dv : list (rvar * (num -> num)) :=
  combine (pair_vars ip i j is) (map snd (pair_edits p qb ai aj 0 0 0 0 rk r s sp a g dv)).
Lemma pair_slots natoms ip i j is p qb ai aj rk r s sp a g dv :
  pair_edits p qb ai aj (slot natoms (AV ip i (FPos 0))) (slot natoms (AV ip j (FPos 0))) (slot natoms (PV ip (FA0 0))) (slot natoms (SV is FDscale)) rk r s sp a g dv =
  slots natoms (pair_labs ip i j is p qb ai aj rk r s sp a g dv).
Proof.
  unfold pair_labs, pair_vars, pair_edits, slots. cbv zeta. cbn [app map combine fst snd].
  repeat (apply f_equal2; [apply f_equal2; [cbn [slot atom_no_ phase_no set_no]; lia|reflexivity]|]). reflexivity.
Qed.
Lemma pair_labels natoms nset ip i j is p qb ai aj rk r s sp a g dv : ip < length natoms -> i < nth ip natoms 0 -> j < nth ip natoms 0 -> is < nset ->
  labels_ok natoms nset (pair_labs ip i j is p qb ai aj rk r s sp a g dv).
Proof.
  intros P I J S e H. unfold pair_labs in H. destruct e as [v f]. apply in_combine_l in H. cbn [fst].
  unfold pair_vars in H. cbn [app] in H. repeat (destruct H as [<-|H]; [cbn [exists_var phase_field_ok atom_field_ok]; repeat split; auto; lia|]). destruct H.
Qed.

Section Pair.
Variables (find : rvar -> option nat) (natoms : list nat) (nset : nat) (refvar : list (option nat)) (vref : list bool).
Hypothesis LEN : length refvar = phase_size natoms + 3 * nset.
Hypothesis REF : forall v, exists_var natoms nset v -> nth_error refvar (slot natoms v) = Some (find v).
Hypothesis COL : columns_fit find natoms nset vref.
Let m := length vref.
Variables (d : cdata) (ip is : nat) (e : centry) (oa : list nat).
Hypothesis G : good_grid d.
Let p := en_ph e.
Let de := en_der e.
Hypothesis UTD : up_to_date e.
Hypothesis SP : sane_phase d p.
Let n := PdfSpec.natoms p.
Let at_ i := atom_no p i.
Let w i := weight_no d p i.
Let N := Z.to_nat (idx d (calc_hi d) + 1).
Hypothesis IP : nth_error natoms ip = Some n.
Hypothesis IS : is < nset.
Hypothesis OA : forall i, i < n -> nth_error oa i = Some (slot natoms (AV ip i (FPos 0))).
Let op := slot natoms (PV ip (FA0 0)).
Let os := slot natoms (SV is FDscale).

Definition pt_len (i j : nat) (t : Z * Z * Z) : R := length_of p (sep p (at_ i) (at_ j) t).
Definition pt_width (i j : nat) (t : Z * Z * Z) : R := width d p (at_ i) (at_ j) (sep p (at_ i) (at_ j) t).
Definition pt_msd (i j : nat) (t : Z * Z * Z) : R := msd p (at_ i) (at_ j) (sep p (at_ i) (at_ j) t).
Definition mult (i j : nat) : R := if i =? j then 1%R else 2%R.
Definition pt_ampl (i j : nat) : R := (mult i j * (at_occ (at_ i) * w i * (at_occ (at_ j) * w j)))%R.
(** the operations of a pair at a point *)
Definition pt_labs (i j : nat) (t : Z * Z * Z) (g : Z) : list (rvar * (num -> num)) :=
  pair_labs ip i j is p (cd_qbroad d) (at_ i) (at_ j) (grid d g) (pt_len i j t) (Some (pt_width i j t)) (Some (sqrt (pt_msd i j t)))
    (Some (pt_ampl i j)) (Some (normal (pt_width i j t) (grid d g - pt_len i j t))) (fun k => (dd p (at_ i) (at_ j) t k * cp_a0 p k)%R).
Definition pt_edits (i j : nat) (t : Z * Z * Z) (g : Z) : list (rvar * (num -> num)) :=
  if in_reach_dec d (pt_len i j t) then if contributes_dec d p (at_ i) (at_ j) t g then pt_labs i j t g else [] else [].

Lemma ip_lt : ip < length natoms. Proof. apply nth_error_Some. congruence. Qed.
Lemma ip_n : nth ip natoms 0 = n. Proof. apply nth_error_nth. auto. Qed.

Lemma deriv_peak_ok i j t A : i < n -> j < n -> mat N m A -> in_reach d (pt_len i j t) -> has_peak d p (at_ i) (at_ j) t ->
  exists A', deriv_peak refvar d (calc_lo d) (calc_hi d) p (at_ i) (at_ j) (slot natoms (AV ip i (FPos 0))) (slot natoms (AV ip j (FPos 0))) op os
      (Some (sqrt (pt_msd i j t))) (fun k => (dd p (at_ i) (at_ j) t k * cp_a0 p k)%R) A (mkPeak (pt_len i j t) (Some (pt_width i j t)) (Some (pt_ampl i j))) = Ok A' /\
  acts find natoms nset vref N (pt_edits i j t) A A'.
Proof.
  intros Hi Hj M IR HP. pose proof (width_pos d p SP (at_ i) (at_ j) t HP) as WP. fold (pt_width i j t) in WP. pose proof IR as [IR1 IR2].
  assert (SN : num_nn (Some (pt_width i j t))) by (simpl; lra). assert (R1 : (0 <= pt_len i j t <= calc_hi d + 1)%R) by lra.
  destruct (pk_bounds d G (Some (pt_width i j t)) (cp_stepcut p) (pt_len i j t) SN R1) as [B1 B2].
  unfold deriv_peak. cbn [pk_sigma pk_dist pk_ampl]. 
  change (Rmax (calc_lo d) (pt_len i j t - 5 * pt_width i j t)) with (pk_lo d (Some (pt_width i j t)) (pt_len i j t)).
  change (if Rlt_dec 0 (cp_stepcut p) then Rmin (Rmin (calc_hi d) (pt_len i j t + 5 * pt_width i j t)) (cp_stepcut p) else Rmin (calc_hi d) (pt_len i j t + 5 * pt_width i j t))
    with (pk_hi d (Some (pt_width i j t)) (cp_stepcut p) (pt_len i j t)).
  destruct (calc_hi_nn d G).
  rewrite (nint_grid d G (pk_lo d _ _)) by lra. rewrite (nint_grid d G (pk_hi d _ _ _)) by lra. cbn [obind].
  fold (idx d (pk_lo d (Some (pt_width i j t)) (pt_len i j t))). fold (idx d (pk_hi d (Some (pt_width i j t)) (cp_stepcut p) (pt_len i j t))).
  set (a := idx d (pk_lo d _ _)). set (b := idx d (pk_hi d _ _ _)).
  assert (A1 : (idx d (calc_lo d) <= a)%Z) by (apply idx_mono; auto; lra).
  assert (B3 : (b <= idx d (calc_hi d))%Z) by (apply idx_mono; auto; lra).
  pose proof (ncmax_nn d G). pose proof (N_len d G) as NL. fold N in NL.
  destruct (acts_rows find natoms nset refvar vref LEN REF COL N (pt_labs i j t) (zloop a b) A (zloop_nodup a b) M) as (A' & E & X).
  { intros g Hg. apply zloop_in in Hg. lia. }
  { intros g Hg. apply pair_labels; rewrite ?ip_n; auto. apply ip_lt. }
  exists A'. split.
  - rewrite <- E. clear - WP. revert A. induction (zloop a b) as [|g l IH]; intros A; cbn [ofold]; auto.
    change (cd_rmin d + IZR g * cd_deltar d)%R with (grid d g). rewrite gauss_ok by auto. unfold op, os. rewrite pair_slots. fold (pt_labs i j t g).
    destruct (obind (rdz A g) _); cbn [obind]; auto.
  - apply (acts_ext _ _ _ _ _ (fun g => if in_dec Z.eq_dec g (zloop a b) then pt_labs i j t g else [])); auto. intros g Hg. unfold pt_edits.
    destruct (in_reach_dec d (pt_len i j t)); [|contradiction].
    pose proof (contributes_split d p (at_ i) (at_ j) t g) as CS. fold (pt_len i j t) (pt_width i j t) in CS.
    rewrite (reaches_idx d G) in CS by (auto; lia). fold a b in CS.
    destruct (in_dec Z.eq_dec g (zloop a b)) as [I|I], (contributes_dec d p (at_ i) (at_ j) t g) as [C|C]; auto; rewrite zloop_in in I; exfalso; tauto.
Qed.

(** all pairs of the phase *)
Definition phase_labs (pts : list (Z * Z * Z)) (g : Z) : list (rvar * (num -> num)) :=
  flat_map (fun ij : nat * nat => if counted (en_igni e) (en_ignj e) (fst ij) (snd ij) then flat_map (fun t => pt_edits (fst ij) (snd ij) t g) pts else []) (half_loop n).

Lemma msd_dd i j t : i < n -> j < n -> in_reach d (pt_len i j t) -> nsqrt (msd_atoms (de_lat de) (at_ i) (at_ j) (dd p (at_ i) (at_ j) t)) = Some (sqrt (pt_msd i j t)).
Proof.
  intros Hi Hj [I _].
  assert (ME : msd_atoms (de_lat de) (at_ i) (at_ j) (dd p (at_ i) (at_ j) t) = pt_msd i j t).
  { rewrite (msd_ok p de UTD (sp_cell d p SP) (sp_tiny d p SP)).
    - apply msd_ext. intros. apply dd_sep; auto.
    - replace (length_of p (dd p (at_ i) (at_ j) t)) with (pt_len i j t). lra. symmetry. apply (nrm_ext (metric (cp_a0 p) (cp_win p))). intros. apply dd_sep; auto. }
  rewrite ME. unfold nsqrt. destruct (Rlt_dec _ 0) as [Q|Q]; auto. exfalso. apply (Rlt_not_le _ _ Q). exact (msd_nn d e SP i j (sep p (at_ i) (at_ j) t) Hi Hj).
Qed.

Lemma phase_derivs_ok fuel pts A : mat N m A ->
  points_in_sphere fuel (sph_lo d e) (sph_hi d e) (lp_make (cp_a0 p 0%nat * IZR (cp_icc p 0)) (cp_a0 p 1%nat * IZR (cp_icc p 1)) (cp_a0 p 2%nat * IZR (cp_icc p 2)) (cp_win p 0%nat) (cp_win p 1%nat) (cp_win p 2%nat))%R = Ok pts ->
  exists A', phase_derivs fuel refvar d (calc_lo d) (calc_hi d) (idx d (calc_lo d)) (idx d (calc_hi d)) e op oa os A = Ok A' /\
  acts find natoms nset vref N (phase_labs pts) A A'.
Proof.
  intros M PTS. unfold phase_derivs. pose proof (weights_ok d e UTD SP) as WO. fold p de n in WO. fold p de. rewrite WO. change (length (cp_atoms p)) with n.
  pose proof (limits_sqrt (calc_lo d) (calc_hi d) (proj2 (calc_hi_nn d G))) as LS.
  pose proof (fun i j t Hi Hj => pair_peak_ok d p de G UTD SP (at_ i) (at_ j) t (w i) (w j) (negb (i =? j)%nat) (msd_nn d e SP i j _ Hi Hj)) as PP.
  destruct (dist_limits (calc_lo d) (calc_hi d)) as [rmin2 rmax2]. destruct LS as [-> ->].
  match goal with |- context [points_in_sphere ?a ?b ?c ?d0] => change (points_in_sphere a b c d0) with (points_in_sphere fuel (sph_lo d e) (sph_hi d e) d0) end.
  cbv zeta. cbv beta. rewrite PTS. cbn [obind].
  apply acts_loop; auto. intros [i j] A1 H M1. apply half_in in H. cbn [fst snd]. rewrite skip_counted. destruct (counted (en_igni e) (en_ignj e) i j) eqn:C; cbn [negb].
  2:{ exists A1. split; auto. apply acts_refl; auto. }
  assert (Hi : i < n) by lia. assert (Hj : j < n) by lia.
  pose proof (rd_atom e i Hi) as RI. pose proof (rd_atom e j Hj) as RJ. fold p in RI, RJ. rewrite RI, RJ. clear RI RJ. cbn [obind]. unfold rd. rewrite (OA i Hi), (OA j Hj). cbn [obind].
  apply acts_loop; auto. intros t A2 _ M2. pose proof (nth_w d e i Hi) as RI. pose proof (nth_w d e j Hj) as RJ. fold p n in RI, RJ.
  match goal with |- context [nth i ?l None] => change (nth i l None) with (nth i (map Some (map (fun i : nat => weight_no d p i) (seq 0 n))) None); change (nth j l None) with (nth j (map Some (map (fun i : nat => weight_no d p i) (seq 0 n))) None) end. rewrite RI, RJ.
  specialize (PP i j t Hi Hj). destruct t as [[a b] c].
  match type of PP with ?l = _ => match goal with |- context [pair_peak ?x1 ?x2 ?x3 ?x4 ?x5 ?x6 ?x7 ?x8 ?x9 ?y1 ?y2] => change (pair_peak x1 x2 x3 x4 x5 x6 x7 x8 x9 y1 y2) with l end end. rewrite PP. clear PP. fold p. fold (at_ i) (at_ j). fold (pt_len i j (a, b, c)).
  destruct (in_reach_dec d (pt_len i j (a, b, c))) as [I|I].
  2:{ exists A2. split; auto. apply (acts_ext _ _ _ _ _ (fun _ => [])). 2: apply acts_refl; auto. intros. unfold pt_edits. destruct (in_reach_dec _ _); [contradiction|]. auto. }
  destruct (has_peak_dec d p (at_ i) (at_ j) (a, b, c)) as [H'|H'].
  2:{ exists A2. split; auto. apply (acts_ext _ _ _ _ _ (fun _ => [])). 2: apply acts_refl; auto. intros. unfold pt_edits. destruct (in_reach_dec _ _); auto.
      destruct (contributes_dec _ _ _ _ _ _) as [Q|Q]; auto. apply contributes_split in Q. tauto. }
  change (fun k => at_pos (at_ i) k - at_pos (at_ j) k - IZR match k with O => a | S O => b | _ => c end * IZR (cp_icc p k))%R with (dd p (at_ i) (at_ j) (a, b, c)).
  rewrite (msd_dd i j (a, b, c)) by auto.
  destruct (deriv_peak_ok i j (a, b, c) A2 Hi Hj M2 I H') as (A' & E' & X'). exists A'. split; [|exact X'].
  rewrite <- E'. unfold pt_ampl, mult. destruct (i =? j); reflexivity.
Qed.
End Pair.
