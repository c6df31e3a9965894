(** One phase, one variable: the row holds the derivative. *)
From Coq Require Import List Arith ZArith Reals Bool Lia Lra.
From Verif Require Import Base RSum MathModel ParserDeriv MathProof MetricModel MetricSpec MetricProof SphereModel PdfModel PdfSpec PdfProof PdfGeo PdfSum PdfPeak PdfPhase PdfTotal LayoutModel LayoutSpec LayoutProof DerivModel DerivSpec DerivRow DerivPair DerivCalc DerivPeak DerivGeo DerivSetup DerivPhase DerivOps.
Import ListNotations.
Local Open Scope R_scope.

Definition change (v : rvar) (y : R) (p : cphase) : cphase :=
  match v with PV _ f => set_phase_field f y p | AV _ ia f => set_phase_atom ia f y p | SV _ _ => p end.

Section One.
Variables (d : cdata) (ip is : nat) (e : centry) (pts : nat -> list (Z * Z * Z)) (g : Z).
Hypothesis G : good_grid d.
Hypothesis O : off_origin d.
Let p := en_ph e.
Hypothesis UTD : up_to_date e.
Hypothesis SP : sane_phase d p.
Hypothesis LO : (idx d (calc_lo d) <= g)%Z.
Let r := grid d g.
Let np := occ_sum p.
Let n := natoms p.
Let bk := damp d g.
Let W := Wof d pts (ip, e).
Let C := Cof d p.
Let cs := counted_share d p (en_igni e) (en_ignj e).
Let rp : 0 < r := r_pos' d g G O LO.
Let npz : np <> 0 := np_nz' d e SP.

Lemma cell_pos0 : pos_cell p.
Proof. pose proof SP as ((A & B & C' & _) & _). intros k K. destruct k as [|[|[|k]]]; try lia; auto. Qed.
Definition wk (k : pairT -> R) (z : pairT) : R := let '(i, j, t) := z in pbase d e i j * k z.
Definition term (Dd : R -> cdata) (Ph : R -> cphase) (y : R) : R :=
  cd_dscale (Dd y) * cp_pscale (Ph y) * fixed_phase (Dd y) (mkEnt (Ph y) (en_der e) (en_igni e) (en_ignj e)) W C g.

(** the sum over pairs changes, and the density *)
Lemma dterm Dd Ph x0 (k : pairT -> R) rho' :
  (forall y, grid (Dd y) g = r) -> (forall y, cd_type (Dd y) = cd_type d) -> (forall y, same_occ p (Ph y)) ->
  (forall y, envelope (Dd y) (Ph y) r = envelope d p r) -> (forall y, cd_dscale (Dd y) = cd_dscale d) -> (forall y, cp_pscale (Ph y) = cp_pscale p) ->
  dl (fun y => density (Ph y)) x0 rho' ->
  (forall i j t, (i <= j < n)%nat -> In (i, j, t) W -> in_reach d (pt_len e i j t) -> contributes d p (atom_no p i) (atom_no p j) t g ->
     dl (fun y => pair_height (Dd y) (Ph y) (atom_no (Ph y) i) (atom_no (Ph y) j) t g) x0 (k (i, j, t))) ->
  dl (term Dd Ph) x0 (facp d e g * (1 / (np * r) * half_sum d e (pts ip) g (wk k) - 4 * PI * r * rho' * cs)).
Proof.
  intros GR TY SO EN DS PS DR H.
  apply dlim_ext with (f := fun y => cd_dscale d * cp_pscale p * (envelope d p r * (half_sum d e (pts ip) g (fun z => pair_share (Dd y) (Ph y) g z) * / (np * r) - 4 * PI * r * density (Ph y) * cs))).
  { intros y. unfold term, fixed_phase. cbn [en_ph en_igni en_ignj]. rewrite (GR y), (EN y), (DS y), (PS y), (occ_sum_same p (Ph y) (SO y)), (share_same d (Dd y) p (Ph y) _ _ (SO y) (TY y)).
    pose proof (W_half d e (pts ip) g (fun z => pair_share (Dd y) (Ph y) g z) (fun i j t => share_rev (Dd y) (Ph y) g i j t)) as WH. unfold W, Wof, C. cbn [fst snd]. fold p in WH. rewrite WH. reflexivity. }
  eapply dl_eq. apply dcm. apply dcm. apply dmi. apply dmc.
  apply (half_deriv d e (pts ip) g (fun y z => pair_share (Dd y) (Ph y) g z) x0 (wk k)).
  - intros i j t Hij IW IR CT. apply dlim_ext with (f := fun y => pbase d e i j * pair_height (Dd y) (Ph y) (atom_no (Ph y) i) (atom_no (Ph y) j) t g).
    { intros y. unfold pair_share, pbase. destruct (SO y) as (_ & OC & _). rewrite !OC, !(weight_same d (Dd y) p (Ph y)) by auto. reflexivity. }
    apply dcm. apply H; auto.
  - apply dmc. apply dcm. exact DR.
  - pose proof (env_is d g p) as EI. fold r in EI. rewrite EI. unfold facp. fold p. fold r. pose proof rp. field. split; auto. lra.
Qed.

(** density *)
Lemma dens_const Ph : (forall y, same_occ p (Ph y)) -> (forall y, cp_icc (Ph y) = cp_icc p) -> (forall y, cp_a0 (Ph y) = cp_a0 p) -> (forall y, cp_win (Ph y) = cp_win p) -> forall x0, dl (fun y => density (Ph y)) x0 0.
Proof.
  intros SO IC A0 WI x0. apply (dcst _ (density p)). intros y. unfold density. rewrite (occ_sum_same p (Ph y) (SO y)), (IC y), (A0 y), (WI y). reflexivity.
Qed.
Lemma dens_len k x0 : (k < 3)%nat -> right_angles p -> x0 = cp_a0 p k -> dl (fun y => density (set_phase_field (FA0 k) y p)) x0 (- density p / cp_a0 p k).
Proof.
  intros K RA X0. pose proof cell_pos0 as PC. pose proof (PC k K) as AK.
  set (c := np / IZR (cp_icc p 0 * cp_icc p 1 * cp_icc p 2)). set (a k' y := if (k' =? k)%nat then y else cp_a0 p k').
  assert (IZ : IZR (cp_icc p 0 * cp_icc p 1 * cp_icc p 2) <> 0). { apply not_0_IZR. pose proof SP as (_ & _ & I & _). pose proof (I 0%nat). pose proof (I 1%nat). pose proof (I 2%nat). nia. }
  assert (DE : forall y, Rabs (y - x0) < cp_a0 p k -> density (set_phase_field (FA0 k) y p) = c / (a 0%nat y * a 1%nat y * a 2%nat y)).
  { intros y Hy. unfold density. rewrite vol90. unfold c, a. cbn [set_phase_field cp_a0 cp_icc]. unfold set_v3.
    assert (Y : 0 < y) by (rewrite X0 in Hy; apply Rabs_def2 in Hy; lra).
    pose proof (PC 0%nat ltac:(lia)). pose proof (PC 1%nat ltac:(lia)). pose proof (PC 2%nat ltac:(lia)). 
    change (occ_sum (mkCp _ _ _ _ _ _ _ _ _ _ _)) with np. field. destruct k as [|[|[|k]]]; try lia; cbn [Nat.eqb]; repeat split; auto; lra.
    exact RA. intros k' K'. cbn [set_phase_field cp_a0]. unfold set_v3. destruct (Nat.eqb_spec k' k). rewrite X0 in Hy. apply Rabs_def2 in Hy. lra. apply PC; auto. }
  apply dl_local with (eps0 := cp_a0 p k) (f := fun y => c / (a 0%nat y * a 1%nat y * a 2%nat y)); auto. { intros y Hy. symmetry. apply DE. auto. }
  assert (DX : density p = c / (a 0%nat x0 * a 1%nat x0 * a 2%nat x0)). { rewrite <- DE. rewrite X0. pose proof (set_phase_same (FA0 k) p) as SS. cbn [phase_value] in SS. rewrite SS. auto. rewrite Rminus_eq_0, Rabs_R0. auto. }
  pose proof (PC 0%nat ltac:(lia)). pose proof (PC 1%nat ltac:(lia)). pose proof (PC 2%nat ltac:(lia)).
  assert (DA : forall k', dl (a k') x0 (if (k' =? k)%nat then 1 else 0)). { intros k'. unfold a. destruct (k' =? k)%nat. apply did. apply dlim_const. }
  eapply dl_eq. apply (ddv (fun _ => c) (fun y => a 0%nat y * a 1%nat y * a 2%nat y)).
  2: apply dlim_const. 2:{ apply dm; [apply dm|]; apply DA. }
  unfold a. subst x0. destruct k as [|[|[|k]]]; try lia; cbn [Nat.eqb]; repeat apply Rmult_integral_contrapositive_currified; lra.
  rewrite DX. unfold a. clear DE DX DA. subst x0. destruct k as [|[|[|k]]]; try lia; cbn [Nat.eqb]; field; lra.
Qed.

(** the row after this phase *)
Definition row_has (v : rvar) (D : R) : Prop := leffect v (last_labs d pts (ip, e) g) (leffect v (phase_labs d ip is e (pts ip) g) (Some 0)) = Some D.
Let k_of (f : nat -> nat -> Z * Z * Z -> R) : pairT -> R := fun z => let '(i, j, t) := z in f i j t.
Lemma row_pairs v f x : (forall i j t, (i <= j < n)%nat -> in_reach d (pt_len e i j t) -> contributes d p (atom_no p i) (atom_no p j) t g ->
    forall x, leffect v (pt_labs d ip is e i j t g) (Some x) = Some (x + mult i j * (pbase d e i j * f i j t))) ->
  leffect v (phase_labs d ip is e (pts ip) g) (Some x) = Some (x + half_sum d e (pts ip) g (wk (k_of f))).
Proof. intros H. apply half_effect. exact H. Qed.

Definition good_at (v : rvar) (x0 : R) : Prop := exists D, dl (term (fun y => data_with is v y d) (fun y => change v y p)) x0 D /\ row_has v D.

Lemma row_zero v x : (forall i j t x, leffect v (pt_labs d ip is e i j t g) (Some x) = Some x) -> leffect v (phase_labs d ip is e (pts ip) g) (Some x) = Some x.
Proof.
  intros H. rewrite (half_effect d ip is e (pts ip) v g (fun _ => 0)). rewrite half_zero. f_equal. ring. intros. rewrite H. f_equal. ring.
Qed.
Definition sl0 (i j : nat) (t : Z * Z * Z) (r' u' f' phi' : R) : R :=
  slope (normal (pt_width d e i j t) (r - pt_len e i j t)) (r - pt_len e i j t) (pt_width d e i j t) (sqrt (pt_msd e i j t)) (ph_now p (pt_len e i j t)) r' u' f' phi'.
Definition dv0 (i j : nat) (t : Z * Z * Z) (k : nat) : R := dd p (atom_no p i) (atom_no p j) t k * cp_a0 p k.
Lemma lt_of i j : (i <= j < n)%nat -> (i < n)%nat /\ (j < n)%nat. Proof. lia. Qed.

Lemma good_pos ia k : (ia < n)%nat -> (k < 3)%nat -> right_angles p -> off_rcut p W ->
  good_at (AV ip ia (FPos k)) (at_pos (atom_no p ia) k).
Proof.
  intros IA K RA OR. set (f := fun i j t => (hit i ia - hit j ia) * one_slope d e i j t g k (cp_a0 p k)).
  eexists. split.
  - apply (dterm _ _ _ (k_of f) 0); try reflexivity.
    + intros y. apply same_atom; auto. discriminate.
    + apply dens_const; try reflexivity. intros y. apply same_atom; auto. discriminate.
    + intros i j t Hij IW IR CT. destruct (lt_of i j Hij). exact (dpos d e SP i j t g H H0 IR CT ia k _ K IA RA (OR i j t IW) eq_refl).
  - unfold row_has. rewrite (row_pairs _ f). 2:{ intros i j t Hij IR CT x. destruct (lt_of i j Hij). apply eff_pos; auto. }
    rewrite op_times_atom; auto. 2: apply Nat.ltb_lt; auto. 2: discriminate. f_equal. fold p. fold np r. field. split; auto. lra.
Qed.
Lemma good_u ia k : (ia < n)%nat -> (k < 6)%nat -> right_angles p -> good_at (AV ip ia (FU k)) (at_u (atom_no p ia) k).
Proof.
  intros IA K RA. set (f := fun i j t => (hit i ia + hit j ia) * sl0 i j t 0 (uform (dv0 i j t) k / (pt_len e i j t * pt_len e i j t)) 0 0).
  eexists. split.
  - apply (dterm _ _ _ (k_of f) 0); try reflexivity.
    + intros y. apply same_atom; auto. discriminate.
    + apply dens_const; try reflexivity. intros y. apply same_atom; auto. discriminate.
    + intros i j t Hij IW IR CT. destruct (lt_of i j Hij). exact (dutens d e SP i j t g H H0 IR CT ia k _ K IA RA eq_refl).
  - unfold row_has. rewrite (row_pairs _ f). 2:{ intros i j t Hij IR CT x. destruct (lt_of i j Hij). apply eff_u; auto. }
    rewrite op_times_atom; auto. 2: apply Nat.ltb_lt; auto. 2: discriminate. f_equal. fold p. fold np r. field. split; auto. lra.
Qed.
Lemma good_len k : (k < 3)%nat -> right_angles p -> off_rcut p W ->
  good_at (PV ip (FA0 k)) (cp_a0 p k).
Proof.
  intros K RA OR. pose proof (cell_pos0 k K) as AK. set (f := fun i j t => one_slope d e i j t g k (dv0 i j t k / cp_a0 p k)).
  eexists. split.
  - apply (dterm _ _ _ (k_of f) (- density p / cp_a0 p k)); try reflexivity.
    + intros y. apply same_field.
    + apply dens_len; auto.
    + intros i j t Hij IW IR CT. destruct (lt_of i j Hij). exact (dlength d e SP i j t g H H0 IR CT k _ K RA (OR i j t IW) eq_refl).
  - unfold row_has. rewrite (row_pairs _ f). 2:{ intros i j t Hij IR CT x. destruct (lt_of i j Hij). apply eff_len; auto. }
    rewrite op_len; auto. 2: fold p; lra. f_equal. unfold base. fold p. fold np r cs. field. repeat split; auto; lra.
Qed.
Lemma good_delta2 : good_at (PV ip FDelta2) (cp_delta2 p).
Proof.
  set (f := fun i j t => sl0 i j t 0 0 (- 1 / (pt_len e i j t * pt_len e i j t)) 0).
  eexists. split.
  - apply (dterm _ _ _ (k_of f) 0); try reflexivity.
    + intros y. apply same_field.
    + apply dens_const; try reflexivity. intros; apply same_field.
    + intros i j t Hij IW IR CT. destruct (lt_of i j Hij). exact (ddelta2 d e SP i j t g IR CT _ eq_refl).
  - unfold row_has. rewrite (row_pairs _ f). 2:{ intros i j t Hij IR CT x. destruct (lt_of i j Hij). apply eff_delta2; auto. }
    rewrite op_times_own; auto. f_equal. fold p. fold np r. field. split; auto. lra.
Qed.
Lemma good_delta1 : good_at (PV ip FDelta1) (cp_delta1 p).
Proof.
  set (f := fun i j t => sl0 i j t 0 0 (- 1 / pt_len e i j t) 0).
  eexists. split.
  - apply (dterm _ _ _ (k_of f) 0); try reflexivity.
    + intros y. apply same_field.
    + apply dens_const; try reflexivity. intros; apply same_field.
    + intros i j t Hij IW IR CT. destruct (lt_of i j Hij). exact (ddelta1 d e SP i j t g IR CT _ eq_refl).
  - unfold row_has. rewrite (row_pairs _ f). 2:{ intros i j t Hij IR CT x. destruct (lt_of i j Hij). apply eff_delta1; auto. }
    rewrite op_times_own; auto. f_equal. fold p. fold np r. field. split; auto. lra.
Qed.
Lemma good_sratio : good_at (PV ip FSratio) (cp_sratio p).
Proof.
  set (f := fun i j t => sl0 i j t 0 0 0 (if Rlt_dec (pt_len e i j t) (cp_rcut p) then 1 else 0)).
  eexists. split.
  - apply (dterm _ _ _ (k_of f) 0); try reflexivity.
    + intros y. apply same_field.
    + apply dens_const; try reflexivity. intros; apply same_field.
    + intros i j t Hij IW IR CT. destruct (lt_of i j Hij). exact (dsratio d e SP i j t g CT _ eq_refl).
  - unfold row_has. rewrite (row_pairs _ f). 2:{ intros i j t Hij IR CT x. destruct (lt_of i j Hij). apply eff_sratio; auto. }
    rewrite op_times_own; auto. f_equal. fold p. fold np r. field. split; auto. lra.
Qed.
(** scale and particle diameter *)
Lemma good_pscale x0 : good_at (PV ip FPscale) x0.
Proof.
  exists (share d pts (ip, e) g * cd_dscale d). split.
  - apply dlim_ext with (f := fun y => y * (share d pts (ip, e) g * cd_dscale d)).
    { intros y. unfold term. cbn [data_with change]. unfold share. cbn [snd]. fold p W C.
      change (fixed_phase d (mkEnt (set_phase_field FPscale y p) (en_der e) (en_igni e) (en_ignj e)) W C g) with (fixed_phase d e W C g). cbn [set_phase_field cp_pscale]. ring. }
    eapply dl_eq. apply dmc. apply did. ring.
  - unfold row_has. apply op_pscale.
Qed.
Definition rest : R := S0 d ip e pts g / (np * r) - base d e g.
Lemma shp_spd y : shp d g (set_phase_field FSpd y p) =
  let s := if Rle_dec y 0 then 1 else sphereEnvelope r y in if Rlt_dec 0 (cp_stepcut p) then (if Rlt_dec (cp_stepcut p) r then 0 else s) else s.
Proof. reflexivity. Qed.
Lemma good_spd : cp_spd p <> 0 -> good_at (PV ip FSpd) (cp_spd p).
Proof.
  intros NZ. set (cut := Rlt_dec 0 (cp_stepcut p)). set (k := fun s : R => if Rlt_dec 0 (cp_stepcut p) then (if Rlt_dec (cp_stepcut p) r then 0 else s) else s).
  assert (KD : forall f x a, dl f x a -> dl (fun y => k (f y)) x (k a)). { intros f x a H. unfold k. destruct (Rlt_dec 0 (cp_stepcut p)); auto. destruct (Rlt_dec (cp_stepcut p) r); auto. apply dlim_const. }
  assert (TM : forall y, term (fun y => data_with is (PV ip FSpd) y d) (fun y => change (PV ip FSpd) y p) y = cd_dscale d * cp_pscale p * (bk * rest) * k (if Rle_dec y 0 then 1 else sphereEnvelope r y)).
  { intros y. unfold term. cbn [data_with change]. unfold fixed_phase. cbn [en_ph]. pose proof (env_is d g (set_phase_field FSpd y p)) as EI. rewrite EI, shp_spd. cbv zeta. fold bk. fold k. unfold rest, S0, base. fold p r np W C. fold cs.
    change (cp_pscale (set_phase_field FSpd y p)) with (cp_pscale p). change (occ_sum (set_phase_field FSpd y p)) with np. change (density (set_phase_field FSpd y p)) with (density p).
    change (counted_share d (set_phase_field FSpd y p)) with (counted_share d p). cbn [en_igni en_ignj]. fold cs. fold (k (if Rle_dec y 0 then 1 else sphereEnvelope r y)).
    change (pair_share d (set_phase_field FSpd y p) g) with (pair_share d p g). ring. }
  assert (SH : share d pts (ip, e) g = bk * k (if Rle_dec (cp_spd p) 0 then 1 else sphereEnvelope r (cp_spd p)) * rest).
  { pose proof (share_is d ip e pts g) as H. rewrite H. reflexivity. }
  assert (SP0 : shp d g p = k (if Rle_dec (cp_spd p) 0 then 1 else sphereEnvelope r (cp_spd p))) by reflexivity.
  unfold good_at, row_has. setoid_rewrite op_spd. fold p r. destruct (Rle_dec (cp_spd p) 0) as [L|L].
  - exists 0. split; auto. eapply dlim_ext. intros y. symmetry. apply TM. 
    apply dl_local with (eps0 := - cp_spd p) (f := fun _ => cd_dscale d * cp_pscale p * (bk * rest) * k 1). lra. intros y Hy. apply Rabs_def2 in Hy. destruct (Rle_dec y 0); [reflexivity|lra]. apply dlim_const.
  - assert (P : 0 < cp_spd p) by lra. eexists. split; [|reflexivity]. eapply dlim_ext. intros y. symmetry. apply TM.
    apply dl_local with (eps0 := cp_spd p) (f := fun y => cd_dscale d * cp_pscale p * (bk * rest) * k (sphereEnvelope r y)); auto. intros y Hy. apply Rabs_def2 in Hy. destruct (Rle_dec y 0); [lra|reflexivity].
    eapply dl_eq. apply dcm. apply KD. apply env_deriv; auto. pose proof rp; lra.
    rewrite SH, SP0. destruct (Rlt_dec 0 (k (sphereEnvelope r (cp_spd p)))) as [Q|Q].
    + assert (KI : k (dsphereEnvelope r (cp_spd p)) = dsphereEnvelope r (cp_spd p)). { unfold k in *. destruct (Rlt_dec 0 (cp_stepcut p)); auto. destruct (Rlt_dec (cp_stepcut p) r); auto. lra. }
      rewrite KI. field. lra.
    + assert (KI : k (dsphereEnvelope r (cp_spd p)) = 0 /\ k (sphereEnvelope r (cp_spd p)) = 0).
      { assert (Z : sphereEnvelope r (cp_spd p) <= 0 -> sphereEnvelope r (cp_spd p) = 0 /\ dsphereEnvelope r (cp_spd p) = 0).
        { intros H. unfold sphereEnvelope, dsphereEnvelope in *. destruct (Rlt_dec (r / cp_spd p) 1) as [A|A]; auto. exfalso.
          assert (0 < r / cp_spd p) by (apply Rdiv_lt_0_compat; auto; exact rp). assert (0 < (1 - r / cp_spd p) ^ 2 * (2 + r / cp_spd p)) by (apply Rmult_lt_0_compat; [apply pow_lt|]; lra). nra. }
        unfold k in *. destruct (Rlt_dec 0 (cp_stepcut p)). destruct (Rlt_dec (cp_stepcut p) r); auto. all: destruct Z as [Z1 Z2]; [lra|auto]. }
      destruct KI as [-> ->]. field.
Qed.

(** occupancy *)
Definition occ_part (ia : nat) (z : pairT) : R :=
  let '(i, j, t) := z in (hit i ia * at_occ (atom_no p j) + hit j ia * at_occ (atom_no p i)) * (weight_no d p i * weight_no d p j) * normal (pt_width d e i j t) (r - pt_len e i j t).
Lemma occ_slope ia : (ia < n)%nat -> dl (term (fun y => data_with is (AV ip ia FOcc) y d) (fun y => change (AV ip ia FOcc) y p)) (at_occ (atom_no p ia))
  (cd_dscale d * cp_pscale p * (bk * shp d g p) * (1 / (np * r) * (half_sum d e (pts ip) g (occ_part ia) + half_sum d e (pts ip) g (fun z => pair_share d p g z) * ((1 - 2 * weight_no d p ia) / np)) - 4 * PI * r * (density p / np) * cs)).
Proof.
  intros IA. set (o := at_occ (atom_no p ia)) in *. set (q := fun y => set_phase_atom ia FOcc y p). set (ty := cd_type d).
  set (sf := fun i => at_sf (atom_no p i) ty). set (F0 := rsum n (fun i => at_occ (atom_no p i) * sf i)).
  assert (OC : forall y i, at_occ (atom_no (q y) i) = at_occ (atom_no p i) + hit i ia * (y - o)).
  { intros y i. unfold q. rewrite atom_set by auto. unfold hit. rewrite (Nat.eqb_sym i ia). destruct (Nat.eqb_spec ia i) as [<-|]. cbn [set_atom_field at_occ]. fold o. ring. ring. }
  assert (SF : forall y i, at_sf (atom_no (q y) i) ty = sf i). { intros y i. unfold q. rewrite atom_set by auto. destruct (ia =? i)%nat; reflexivity. }
  assert (NA : forall y, natoms (q y) = n) by (intros y; apply natoms_set).
  assert (H1 : forall f : nat -> R, rsum n (fun i => f i * hit i ia) = f ia).
  { intros f. rewrite (rsum_single n _ ia); auto. unfold hit. rewrite Nat.eqb_refl. ring. intros i _ Ne. unfold hit. destruct (Nat.eqb_spec i ia). contradiction. ring. }
  assert (NN : forall y, occ_sum (q y) = np + (y - o)).
  { intros y. unfold occ_sum. rewrite NA. rewrite (rsum_ext n _ (fun i => at_occ (atom_no p i) + (y - o) * hit i ia)) by (intros; rewrite OC; ring). rewrite rsum_plus. rewrite (H1 (fun _ => y - o)). reflexivity. }
  assert (FF : forall y, rsum (natoms (q y)) (fun i => at_occ (atom_no (q y) i) * at_sf (atom_no (q y) i) ty) = F0 + sf ia * (y - o)).
  { intros y. rewrite NA. rewrite (rsum_ext n _ (fun i => at_occ (atom_no p i) * sf i + (sf i * (y - o)) * hit i ia)) by (intros; rewrite OC, SF; ring). rewrite rsum_plus. rewrite (H1 (fun i => sf i * (y - o))). reflexivity. }
  pose proof SP as (_ & _ & _ & _ & MZ & SZ & _). fold n ty in SZ. change (rsum n sf <> 0) in SZ.
  assert (MF : mean_sf d p = F0 / np) by reflexivity.
  assert (F0Z : F0 <> 0). { intros Z. apply MZ. rewrite MF, Z. field. exact npz. }
  assert (WT : forall y i, weight_no d (q y) i = sf i / ((F0 + sf ia * (y - o)) / (np + (y - o)))).
  { intros y i. unfold weight_no, mean_sf. fold ty. rewrite SF, FF, NN. reflexivity. }
  assert (WP : forall i, weight_no d p i = sf i / (F0 / np)) by (intros; unfold weight_no; rewrite MF; reflexivity).
  (* the share of counted pairs does not depend on the occupancies *)
  set (c2 := rsum n (fun i => rsum n (fun j => if counted (en_igni e) (en_ignj e) i j then sf i * sf j else 0)) / (rsum n sf * rsum n sf)).
  assert (CSgen : forall (w : nat -> R) m, m <> 0 -> (forall i, w i = sf i / m) ->
     rsum n (fun i => rsum n (fun j => if counted (en_igni e) (en_ignj e) i j then w i * w j else 0)) / (rsum n w * rsum n w) = c2).
  { intros w m M W0. rewrite (rsum_ext n w (fun i => / m * sf i)) by (intros; rewrite W0; unfold Rdiv; ring). rewrite rsum_scal.
    rewrite (rsum_ext n _ (fun i => (/ m * / m) * rsum n (fun j => if counted (en_igni e) (en_ignj e) i j then sf i * sf j else 0))).
    rewrite rsum_scal. unfold c2. field. auto. intros i _. rewrite <- rsum_scal. apply rsum_ext. intros j _. rewrite !W0. destruct (counted _ _ i j); [field; auto|ring]. }
  assert (CS0 : cs = c2). { apply (CSgen (weight_no d p) (F0 / np)). unfold Rdiv. apply Rmult_integral_contrapositive_currified; auto. apply Rinv_neq_0_compat; exact npz. exact WP. }
  set (eps := Rmin (Rabs np) (Rabs F0 / (1 + Rabs (sf ia)))).
  assert (EP : 0 < eps). { unfold eps. apply Rmin_pos. apply Rabs_pos_lt; exact npz. apply Rdiv_lt_0_compat. apply Rabs_pos_lt; auto. pose proof (Rabs_pos (sf ia)). lra. }
  assert (NE : forall y, Rabs (y - o) < eps -> np + (y - o) <> 0 /\ F0 + sf ia * (y - o) <> 0).
  { intros y Hy. split; intros Z.
    - assert (Rabs (y - o) = Rabs np). { replace (y - o) with (- np) by lra. apply Rabs_Ropp. } pose proof (Rmin_l (Rabs np) (Rabs F0 / (1 + Rabs (sf ia)))). fold eps in H0. lra.
    - assert (E1 : Rabs (sf ia) * Rabs (y - o) = Rabs F0). { rewrite <- Rabs_mult. replace (sf ia * (y - o)) with (- F0) by lra. apply Rabs_Ropp. }
      pose proof (Rmin_r (Rabs np) (Rabs F0 / (1 + Rabs (sf ia)))) as B. fold eps in B. pose proof (Rabs_pos (sf ia)) as SA. pose proof (Rabs_pos (y - o)) as YA.
      assert (Rabs (y - o) < Rabs F0 / (1 + Rabs (sf ia))) as L by lra. apply (Rmult_lt_compat_r (1 + Rabs (sf ia))) in L; [|lra].
      replace (Rabs F0 / (1 + Rabs (sf ia)) * (1 + Rabs (sf ia))) with (Rabs F0) in L by (field; lra). nra. }
  assert (CSY : forall y, Rabs (y - o) < eps -> counted_share d (q y) (en_igni e) (en_ignj e) = cs).
  { intros y Hy. destruct (NE y Hy) as [A B]. rewrite CS0. unfold counted_share. rewrite NA. apply (CSgen (weight_no d (q y)) ((F0 + sf ia * (y - o)) / (np + (y - o)))).
    unfold Rdiv. apply Rmult_integral_contrapositive_currified; auto. apply Rinv_neq_0_compat; auto. apply WT. }
  set (w := weight_no d p ia).
  set (kk := occ_part ia).
  set (N0 := fun z : pairT => let '(i, j, t) := z in normal (pt_width d e i j t) (r - pt_len e i j t)).
  set (ve := cd_dscale d * cp_pscale p * (bk * shp d g p)).
  set (H := half_sum d e (pts ip) g).
  (* the product of the two weighted occupancies *)
  set (DW := forall i, dl (fun y => at_occ (atom_no (q y) i) * weight_no d (q y) i) o (weight_no d p i * (hit i ia + at_occ (atom_no p i) * ((1 - w) / np)))).
  assert (DWp : DW).
  { intros i. apply dlim_ext with (f := fun y => (at_occ (atom_no p i) + hit i ia * (y - o)) * (sf i * ((np + (y - o)) / (F0 + sf ia * (y - o))))).
    { intros y. rewrite OC, WT. unfold Rdiv. rewrite Rinv_mult, Rinv_inv. ring. }
    eapply dl_eq.
    - apply dm. apply dp. apply dlim_const. apply dcm. apply dmi. apply did. apply dlim_const. apply dcm. apply (ddv (fun y => np + (y - o)) (fun y => F0 + sf ia * (y - o))).
      rewrite Rminus_eq_0, Rmult_0_r, Rplus_0_r. auto. apply dp. apply dlim_const. apply dmi. apply did. apply dlim_const. apply dp. apply dlim_const. apply dcm. apply dmi. apply did. apply dlim_const.
    - cbv beta. rewrite !Rminus_eq_0. unfold w. rewrite !WP. field. repeat split; auto; try (intros ?HH; apply F0Z; lra); exact npz. }
  change (dl (term (fun y => data_with is (AV ip ia FOcc) y d) (fun y => change (AV ip ia FOcc) y p)) o (ve * (1 / (np * r) * (H kk + H (fun z => pair_share d p g z) * ((1 - 2 * w) / np)) - 4 * PI * r * (density p / np) * cs))).
  - apply dl_local with (eps0 := eps) (f := fun y => ve * (H (fun z => pair_share d (q y) g z) / ((np + (y - o)) * r) - 4 * PI * r * (density p / np * (np + (y - o))) * cs)); auto.
    { intros y Hy. unfold term. cbn [data_with change]. fold q. fold (q y). unfold fixed_phase. cbn [en_ph en_igni en_ignj]. fold r. rewrite (CSY y Hy).
      pose proof (W_half d e (pts ip) g (fun z => pair_share d (q y) g z) (fun i j t => share_rev d (q y) g i j t)) as WH. fold p in WH. unfold W, Wof, C. cbn [fst snd]. rewrite WH, NN.
      pose proof (env_is d g (q y)) as EI. fold r in EI. rewrite EI. change (shp d g (q y)) with (shp d g p). change (cp_pscale (q y)) with (cp_pscale p).
      assert (DE : density (q y) = density p / np * (np + (y - o))). { unfold density. rewrite NN. change (cp_icc (q y)) with (cp_icc p). change (cp_a0 (q y)) with (cp_a0 p). change (cp_win (q y)) with (cp_win p). fold np. assert (GE : forall a b D, a <> 0 -> b / D = a / D / a * b) by (intros a b D HA; unfold Rdiv; replace (a * / D * / a * b) with (a * / a * (b * / D)) by ring; rewrite Rinv_r by auto; ring). apply GE. exact npz. }
      rewrite DE. unfold ve. fold bk. unfold H. apply Rmult_assoc. }
    eapply dl_eq.
    + apply dcm. apply dmi. apply (ddv (fun y => H (fun z => pair_share d (q y) g z)) (fun y => (np + (y - o)) * r)). rewrite Rminus_eq_0, Rplus_0_r. apply Rmult_integral_contrapositive_currified. exact npz. pose proof rp; lra.
      apply (half_deriv d e (pts ip) g (fun y z => pair_share d (q y) g z) o (fun z => kk z + 2 * ((1 - w) / np) * pair_share d p g z)).
      * intros i j t Hij IW IR CT. apply dlim_ext with (f := fun y => (at_occ (atom_no (q y) i) * weight_no d (q y) i) * (at_occ (atom_no (q y) j) * weight_no d (q y) j) * N0 (i, j, t)).
        { intros y. unfold pair_share. f_equal. unfold N0, pair_height, q. cbv zeta. rewrite !atom_set by auto. destruct (ia =? i)%nat, (ia =? j)%nat; reflexivity. }
        eapply dl_eq. apply dmc. apply dm. apply DWp. apply DWp. cbv beta. rewrite !OC, !WT, Rminus_eq_0, !Rmult_0_r, !Rplus_0_r, <- !WP. unfold kk, occ_part, N0, pair_share, pair_height. cbv zeta.
        change (width d p (atom_no p i) (atom_no p j) (sep p (atom_no p i) (atom_no p j) t)) with (pt_width d e i j t). change (length_of p (sep p (atom_no p i) (atom_no p j) t)) with (pt_len e i j t). fold r. fold p.
        unfold hit. destruct (Nat.eqb_spec i ia) as [Ei|Ei], (Nat.eqb_spec j ia) as [Ej|Ej]; try rewrite Ei; try rewrite Ej; fold o; field; repeat split; try exact npz; auto.
      * apply dmc. apply dp. apply dlim_const. apply dmi. apply did. apply dlim_const.
      * apply dmc. apply dcm. apply dcm. apply dp. apply dlim_const. apply dmi. apply did. apply dlim_const.
    + cbv beta. rewrite Rminus_eq_0, Rplus_0_r.
      assert (HS : forall a b (A B : pairT -> R), half_sum d e (pts ip) g (fun z => A z + a * b * B z) = H A + a * b * H B).
      { intros a b A B. unfold H. rewrite <- half_scal. unfold half_sum. rewrite <- lsum_plus. apply lsum_ext. intros [i j] _. cbn [fst snd]. destruct (counted _ _ i j); [|ring]. rewrite <- lsum_plus. apply lsum_ext. intros t _. unfold half_term.
        destruct (in_reach_dec d _); [|ring]. destruct (contributes_dec _ _ _ _ _ _); ring. }
      rewrite HS. assert (QO : q o = p) by (apply (set_phase_atom_same ia FOcc)). rewrite QO. pose proof rp. change (fun z : pairT => pair_share d p g z) with (pair_share d p g). field. split; [exact npz|lra].
Qed.
Lemma good_occ ia : (ia < n)%nat -> at_occ (atom_no p ia) <> 0 -> good_at (AV ip ia FOcc) (at_occ (atom_no p ia)).
Proof.
  intros IA NZ. eexists. split. apply occ_slope; auto.
  unfold row_has. rewrite (half_effect d ip is e (pts ip) (AV ip ia FOcc) g (occ_part ia)).
  2:{ intros i j t Hij IR CT x. destruct (lt_of i j Hij). rewrite eff_occ; auto. f_equal. f_equal. f_equal. unfold occ_part, pbase, hit. fold p.
    destruct (Nat.eqb_spec i ia) as [Ei|Ei], (Nat.eqb_spec j ia) as [Ej|Ej]; try rewrite Ei; try rewrite Ej; fold r; field; auto. }
  rewrite op_occ; auto. f_equal. pose proof (share_is d ip e pts g) as SI. rewrite SI. unfold facp, base. fold p. fold np r cs bk.
  assert (SS : S0 d ip e pts g = half_sum d e (pts ip) g (fun z => pair_share d p g z)). { unfold S0. apply (W_half d e (pts ip) g (fun z => pair_share d p g z)). intros; apply share_rev. }
  rewrite SS. pose proof rp. field. split; [exact npz|lra].
Qed.
(** qbroad: the factor is applied at the end, for the data set *)
Definition qb_slope (i j : nat) (t : Z * Z * Z) : R := sl0 i j t 0 0 (2 * cd_qbroad d * (pt_len e i j t * pt_len e i j t)) 0.
Definition qb_part : R := half_sum d e (pts ip) g (wk (fun z => let '(i, j, t) := z in qb_slope i j t)).
Lemma good_qbroad : dl (term (fun y => data_with is (SV is FQbroad) y d) (fun _ => p)) (cd_qbroad d) (qb_part * (1 / (np * r) * facp d e g)) /\
  forall x, leffect (SV is FQbroad) (phase_labs d ip is e (pts ip) g) (Some x) = Some (x + qb_part).
Proof.
  set (f := qb_slope). split.
  - eapply dl_eq. apply (dterm _ _ _ (k_of f) 0); try reflexivity; try (intros y; cbn [data_with]; rewrite Nat.eqb_refl; reflexivity).
    + intros y. apply same_refl.
    + apply dens_const; try reflexivity. intros; apply same_refl.
    + intros i j t Hij IW IR CT. destruct (lt_of i j Hij). cbn [data_with]. rewrite Nat.eqb_refl. exact (dqbroad d e SP i j t g CT _ eq_refl).
    + pose proof rp. fold np r. change (half_sum d e (pts ip) g (wk (k_of f))) with qb_part. field. split; auto. lra.
  - intros x. rewrite (row_pairs _ f). 2:{ intros i j t Hij IR CT y. destruct (lt_of i j Hij). apply eff_qbroad; auto. } reflexivity.
Qed.
End One.
