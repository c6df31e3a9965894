(** Phases in which the same pairs contribute to the same points. *)
From Coq Require Import List Arith ZArith Reals Bool Lia Lra.
From Verif Require Import Base RSum MathModel ParserDeriv MathProof MetricModel MetricSpec MetricProof SphereModel PdfModel PdfSpec PdfProof PdfGeo PdfSum PdfPeak PdfPhase PdfTotal PdfFinal LayoutModel LayoutSpec LayoutProof DerivModel DerivSpec DerivRow DerivPair DerivCalc DerivPeak DerivGeo DerivSetup DerivPhase DerivOps DerivOne DerivSets DerivFinal DerivOut.
Import ListNotations.
Local Open Scope R_scope.

(** all but scale, diameter and occupancies is the same *)
Record alike_phase (p q : cphase) : Prop := mkAlike {
  al_a0 : cp_a0 q = cp_a0 p; al_win : cp_win q = cp_win p; al_icc : cp_icc q = cp_icc p; al_d2 : cp_delta2 q = cp_delta2 p; al_d1 : cp_delta1 q = cp_delta1 p;
  al_step : cp_stepcut q = cp_stepcut p; al_ratio : cp_sratio q = cp_sratio p; al_rcut : cp_rcut q = cp_rcut p; al_n : natoms q = natoms p;
  al_pos : forall i, at_pos (atom_no q i) = at_pos (atom_no p i); al_u : forall i, at_u (atom_no q i) = at_u (atom_no p i) }.
(** all but scale and Q-damping *)
Definition alike_data (d d' : cdata) : Prop :=
  cd_rmin d' = cd_rmin d /\ cd_rfmin d' = cd_rfmin d /\ cd_rfmax d' = cd_rfmax d /\ cd_deltar d' = cd_deltar d /\ cd_qmax d' = cd_qmax d /\ cd_qbroad d' = cd_qbroad d.
Definition alike_entries (psel psel' : list (option centry)) : Prop := length psel' = length psel /\
  forall ip, match nth_error psel ip, nth_error psel' ip with
  | Some (Some e), Some (Some e') => alike_phase (en_ph e) (en_ph e') /\ up_to_date e' /\ en_igni e' = en_igni e /\ en_ignj e' = en_ignj e
  | Some None, Some None => True | None, None => True | _, _ => False end.

Section Alike.
Variables (d d' : cdata).
Hypothesis SD : alike_data d d'.
Lemma k_calc : calc_lo d' = calc_lo d /\ calc_hi d' = calc_hi d.
Proof. destruct SD as (A & B & C & D & E & F). unfold calc_lo, calc_hi. rewrite A, B, C, E. auto. Qed.
Section Phase.
Variables (p q : cphase).
Hypothesis SP : alike_phase p q.
Lemma k_length i j t : sep q (atom_no q i) (atom_no q j) t = sep p (atom_no p i) (atom_no p j) t /\ forall h, length_of q h = length_of p h.
Proof.
  destruct SP. split.
  - destruct t as [[a b] c]. unfold sep. rewrite !al_pos0, al_icc0. reflexivity.
  - intros h. unfold length_of. rewrite al_a1, al_win0. reflexivity.
Qed.
Lemma k_msd i j h : msd q (atom_no q i) (atom_no q j) h = msd p (atom_no p i) (atom_no p j) h.
Proof. destruct (k_length i j (0, 0, 0)%Z) as [_ LE]. destruct SP. unfold msd. rewrite LE, al_a1, al_win0, !al_u0. reflexivity. Qed.
Lemma k_contrib i j t g : contributes d' q (atom_no q i) (atom_no q j) t g <-> contributes d p (atom_no p i) (atom_no p j) t g.
Proof.
  destruct (k_length i j t) as [SE LE]. destruct SD as (A & B & C & D & E & F). destruct k_calc as [CL CH]. pose proof (k_msd i j) as M. destruct SP.
  assert (WF : forall r, width_factor d' q r = width_factor d p r). { intros r. unfold width_factor. rewrite al_d4, al_d3, F. reflexivity. }
  assert (WW : forall h, width d' q (atom_no q i) (atom_no q j) h = width d p (atom_no p i) (atom_no p j) h). { intros h. unfold width. rewrite M, LE, WF, al_rcut0, al_ratio0. reflexivity. }
  unfold contributes. cbv zeta. rewrite SE, M, LE, WF, WW. unfold reaches, grid. rewrite CL, CH, al_step0, A, D. tauto.
Qed.
Lemma k_if {B} r (a b : B) : (if in_reach_dec d' r then a else b) = if in_reach_dec d r then a else b.
Proof. destruct k_calc as [CL CH]. assert (in_reach d' r <-> in_reach d r) by (unfold in_reach; rewrite CL, CH; tauto). destruct (in_reach_dec d' r), (in_reach_dec d r); tauto. Qed.
Lemma k_cof x g : Cof d' q x g = Cof d p x g.
Proof. destruct x as [[i j] t]. unfold Cof. pose proof (k_contrib i j t g). destruct (contributes_dec d' q _ _ _ _), (contributes_dec d p _ _ _ _); tauto. Qed.
End Phase.
Lemma k_pairs e e' pt : alike_phase (en_ph e) (en_ph e') -> en_igni e' = en_igni e -> en_ignj e' = en_ignj e -> pair_W d' e' pt = pair_W d e pt.
Proof.
  intros SP E1 E2. unfold pair_W. rewrite (al_n _ _ SP). apply flat_map_ext. intros [i j]. unfold pair_block. rewrite E1, E2.
  destruct (counted _ _ i j); auto. apply flat_map_ext. intros t. destruct (k_length _ _ SP i j t) as [SE LE]. rewrite SE, LE. apply k_if.
Qed.
Lemma k_lat e e' : alike_phase (en_ph e) (en_ph e') -> up_to_date e -> up_to_date e' -> de_lat (en_der e') = de_lat (en_der e).
Proof. intros SP U U'. destruct (lat_occ _ (en_ph e') (en_der e) (al_a0 _ _ SP) (al_win _ _ SP) U) as (de & LA & DL). unfold up_to_date in U'. congruence. Qed.
Lemma k_sphere e e' : alike_phase (en_ph e) (en_ph e') -> de_lat (en_der e') = de_lat (en_der e) -> sph_lo d' e' = sph_lo d e /\ sph_hi d' e' = sph_hi d e.
Proof.
  intros SP DL. destruct k_calc as [CL CH].
  assert (CD : circum_diameter (de_lat (en_der e')) (cp_atoms (en_ph e')) = circum_diameter (de_lat (en_der e)) (cp_atoms (en_ph e))). { rewrite DL. unfold circum_diameter. apply nil_len. exact (al_n _ _ SP). }
  unfold sph_lo, sph_hi. rewrite CD, CL, CH, (al_step _ _ SP). auto.
Qed.

Section Psel.
Variables (psel psel' : list (option centry)) (natoms : list nat) (pts : nat -> list (Z * Z * Z)).
Hypothesis G : good_grid d.
Hypothesis O : off_origin d.
Hypothesis GF : good_filter d.
Hypothesis AL : alike_entries psel psel'.
Hypothesis SN : forall ip e', nth_error psel' ip = Some (Some e') -> sane_phase d' (en_ph e').
Lemma k_entry ip e' : nth_error psel' ip = Some (Some e') -> exists e, nth_error psel ip = Some (Some e) /\ alike_phase (en_ph e) (en_ph e') /\ up_to_date e' /\ en_igni e' = en_igni e /\ en_ignj e' = en_ignj e.
Proof. intros E. destruct AL as [_ H]. specialize (H ip). rewrite E in H. destruct (nth_error psel ip) as [[e|]|]; try destruct H. exists e. auto. Qed.
Lemma alike_good fuel nset is (vref : list bool) (IS : (is < nset)%nat) : (forall x, In x (numbered 0 psel) -> good_entry natoms d pts fuel x) ->
  exists t, determine fuel d' psel' = Ok (idx d (cd_rfmin d), idx d (cd_rfmax d), t) /\
  holds_pdf d (idx d (calc_lo d)) (idx d (calc_hi d)) (fixed_pdf d' psel' (Wn d psel pts) (Cn d psel)) t.
Proof.
  intros GD. destruct SD as (D1 & D2 & D3 & D4 & D5 & D6). destruct k_calc as [CL CH].
  assert (ID : forall r, idx d' r = idx d r) by (intros r; unfold idx; rewrite D1, D4; reflexivity).
  assert (G' : good_grid d') by (unfold good_grid in *; rewrite D1, D2, D3, D4, CH; exact G).
  assert (O' : off_origin d') by (unfold off_origin in *; rewrite D1, D4, CL; exact O).
  assert (GF' : good_filter d') by (unfold good_filter in *; rewrite D4, D5, CL, CH; exact GF).
  assert (GD' : forall x, In x (numbered 0 psel') -> good_entry natoms d' pts fuel x).
  { intros [ip e'] I. apply in_l in I. destruct (k_entry ip e' I) as (e & E & SP & U & _ & _). destruct (GD (ip, e)) as (U0 & _ & N & P). apply in_l; auto.
    destruct (k_sphere e e' SP (k_lat e e' SP U0 U)) as [S1 S2].
    split; auto. split. apply (SN ip e' I). split. rewrite (al_n _ _ SP). exact N. rewrite S1, S2, (al_a0 _ _ SP), (al_win _ _ SP), (al_icc _ _ SP). exact P. }
  destruct (determine_at natoms nset vref d' is G' O' GF' IS pts fuel psel' GD') as (t & E & H). exists t. rewrite D2, D3, !ID in E. split; auto. rewrite CL, CH, !ID in H.
  assert (TE : forall g, total d' pts (numbered 0 psel') g = fixed_pdf d' psel' (Wn d psel pts) (Cn d psel) g).
  { intros g. rewrite <- (total_pdf d' is psel' pts g). unfold fixed_pdf. apply lsum_ext. intros ip I. apply in_seq in I. unfold phase_term.
    destruct (nth ip psel' None) as [e'|] eqn:EE; auto.
    assert (NE' : nth_error psel' ip = Some (Some e')) by (rewrite <- EE; apply nth_error_nth'; lia). destruct (k_entry ip e' NE') as (e & NE & SP & U & I1 & I2).
    unfold Wn, Cn. rewrite NE', NE. f_equal. unfold fixed_phase. f_equal. f_equal. f_equal. rewrite (k_pairs e e' (pts ip) SP I1 I2). apply lsum_ext. intros x _. rewrite (k_cof _ _ SP x g). reflexivity. }
  destruct H as (H1 & H2 & H3 & H4). rewrite D4, D5 in H4. rewrite D5 in H3. split; auto. split; auto. split.
  - intros Q g Hg. rewrite (H3 Q g Hg). f_equal. apply TE.
  - intros Q. destruct (H4 Q) as (out & FI & X). exists out. split; auto. rewrite <- (map_ext _ _ TE). exact FI.
Qed.
End Psel.
End Alike.

Theorem derivatives_more d psel find natoms nset npar ly vref is :
  good_grid d -> off_origin d -> good_filter d -> (forall e, In e (selected_entries psel) -> up_to_date e /\ sane_phase d (en_ph e)) ->
  counts_fit psel natoms -> (is < nset)%nat -> fit_setup find natoms nset npar = Ok ly -> columns_fit find natoms nset vref ->
  exists lo hi f1 f2 f0 W C, point_ranges d lo hi f1 f2 /\ right_limits d psel W C /\
  forall fuel, (f0 <= fuel)%nat ->
  (forall d' psel', alike_data d d' -> alike_entries psel psel' -> (forall ip e', nth_error psel' ip = Some (Some e') -> sane_phase d' (en_ph e')) ->
     exists t, determine fuel d' psel' = Ok (f1, f2, t) /\ holds_pdf d lo hi (fixed_pdf d' psel' W C) t) /\
  (exists t, determine fuel d psel = Ok (f1, f2, t) /\ holds_pdf d lo hi (fixed_pdf d psel W C) t) /\
  exists A, determine_diff fuel d psel ly is vref = Ok A /\
  forall v c, exists_var natoms nset v -> find v = Some c -> claimed is d psel W v ->
  exists D, holds_pdf d lo hi D (column A c) /\
  forall g x0, (lo <= g <= hi)%Z -> value_is is v d psel x0 -> derivable_pt_lim (fun x => fixed_pdf (data_with is v x d) (phases_with v x psel) W C g) x0 (D g).
Proof.
  intros G O GF AR CF IS FS CO. destruct (columns_at d psel find natoms nset npar ly vref is G O GF AR CF IS FS CO) as (f0 & pts & RL & X).
  exists (idx d (calc_lo d)), (idx d (calc_hi d)), (idx d (cd_rfmin d)), (idx d (cd_rfmax d)), f0, (Wn d psel pts), (Cn d psel).
  split. apply ranges_ok; auto. split; auto. intros fuel Hf. destruct (X fuel Hf) as (GD & T & A & E & _ & H). split. { intros d' psel' SD AL SN. eapply (alike_good d d' SD psel psel' natoms pts); eauto. }
  split; auto. exists A. split; auto. intros v c V F CL.
  assert (HA : forall g, (idx d (calc_lo d) <= g)%Z -> holds_at d is psel pts v g) by (intros g LO; apply (claimed_holds d psel natoms nset); auto).
  exists (fun g => match leffect v (all_labs d is pts (numbered 0 psel) g) (Some 0) with Some x => x | None => 0 end). split.
  - apply (H v c); auto. intros g Hg. destruct (HA g) as (D & _ & B). lia. rewrite B. reflexivity.
  - intros g x0 Hg VI. destruct (HA g) as (D & Y & B). lia. rewrite B. apply Y. exact VI.
Qed.
