(** The sum over the pairs of a phase and its derivative. *)
From Coq Require Import List Arith ZArith Reals Bool Lia Lra.
From Verif Require Import Base RSum MathModel ParserDeriv MathProof MetricModel MetricSpec MetricProof PdfModel PdfSpec PdfGeo PdfSum PdfPeak PdfPhase PdfTotal LayoutModel LayoutSpec DerivModel DerivSpec DerivRow DerivPair DerivCalc DerivPeak DerivGeo DerivSetup.
Import ListNotations.
Local Open Scope R_scope.

Lemma leffect_flat {B} v (f : B -> list (rvar * (num -> num))) (F : B -> R) : forall l, (forall b, In b l -> forall x, leffect v (f b) (Some x) = Some (x + F b)) ->
  forall x, leffect v (flat_map f l) (Some x) = Some (x + lsum F l).
Proof.
  induction l as [|b l IH]; intros H x; cbn [flat_map]. rewrite lsum_nil, Rplus_0_r. reflexivity.
  rewrite leffect_app, (H b (or_introl eq_refl)), IH by (intros; apply H; right; auto). rewrite lsum_cons. f_equal. ring.
Qed.

Lemma dcst f c x : (forall y, f y = c) -> dl f x 0.
Proof. intros H. apply dlim_ext with (f := fun _ => c). intros; symmetry; apply H. apply dlim_const. Qed.

Section Core.
Variables (d : cdata) (ip is : nat) (e : centry) (pts : list (Z * Z * Z)).
Let p := en_ph e.
Let n := natoms p.
(** what a pair adds when it is looked at and contributes *)
Definition half_term (g : Z) (K : pairT -> R) (i j : nat) (t : Z * Z * Z) : R :=
  if in_reach_dec d (pt_len e i j t) then if contributes_dec d p (atom_no p i) (atom_no p j) t g then mult i j * K (i, j, t) else 0 else 0.
Definition half_sum (g : Z) (K : pairT -> R) : R :=
  lsum (fun ij : nat * nat => if counted (en_igni e) (en_ignj e) (fst ij) (snd ij) then lsum (fun t => half_term g K (fst ij) (snd ij) t) pts else 0) (half_loop n).
Lemma W_half g Q : (forall i j t, Q (j, i, rev_t t) = Q (i, j, t)) -> lsum (fun z => if Cof d p z g then Q z else 0) (pair_W d e pts) = half_sum g Q.
Proof.
  intros SY. unfold pair_W, half_sum. rewrite lsum_flat. apply lsum_ext. intros [i j] _. unfold pair_block. cbn [fst snd]. destruct (counted _ _ i j); [|reflexivity].
  rewrite lsum_flat. apply lsum_ext. intros t _. unfold half_term, pt_len. fold p. destruct (in_reach_dec d _); [|reflexivity].
  destruct (Nat.eqb_spec i j) as [->|Ne].
  - rewrite lsum_cons, lsum_nil. unfold Cof, mult. rewrite Nat.eqb_refl. destruct (contributes_dec _ _ _ _ _ _); ring.
  - rewrite !lsum_cons, lsum_nil, SY. unfold Cof, mult. destruct (Nat.eqb_spec i j); [contradiction|].
    destruct (contributes_dec d p (atom_no p i) (atom_no p j) t g) as [C|C], (contributes_dec d p (atom_no p j) (atom_no p i) (rev_t t) g) as [C'|C']; rewrite contributes_rev in C'; try contradiction; ring.
Qed.
Lemma half_effect v g K : (forall i j t, (i <= j < n)%nat -> in_reach d (pt_len e i j t) -> contributes d p (atom_no p i) (atom_no p j) t g ->
    forall x, leffect v (pt_labs d ip is e i j t g) (Some x) = Some (x + mult i j * K (i, j, t))) ->
  forall x, leffect v (phase_labs d ip is e pts g) (Some x) = Some (x + half_sum g K).
Proof.
  intros H. unfold phase_labs. apply leffect_flat. intros [i j] I x. apply half_in in I. cbn [fst snd]. destruct (counted _ _ i j); [|rewrite Rplus_0_r; reflexivity].
  apply leffect_flat. intros t _ x'. unfold pt_edits, half_term. destruct (in_reach_dec d (pt_len e i j t)); [|rewrite Rplus_0_r; reflexivity]. fold p.
  destruct (contributes_dec d p _ _ t g); [|rewrite Rplus_0_r; reflexivity]. apply H; auto.
Qed.
Lemma half_deriv g (Q : R -> pairT -> R) x0 K : (forall i j t, (i <= j < n)%nat -> In (i, j, t) (pair_W d e pts) -> in_reach d (pt_len e i j t) -> contributes d p (atom_no p i) (atom_no p j) t g -> dl (fun y => Q y (i, j, t)) x0 (K (i, j, t))) ->
  dl (fun y => half_sum g (Q y)) x0 (half_sum g K).
Proof.
  intros H. unfold half_sum. apply (dsum (half_loop n) (fun ij y => if counted (en_igni e) (en_ignj e) (fst ij) (snd ij) then lsum (fun t => half_term g (Q y) (fst ij) (snd ij) t) pts else 0)).
  intros [i j] I. pose proof I as I0. apply half_in in I. cbn [fst snd]. destruct (counted _ _ i j) eqn:CO; [|apply (dlim_const 0)].
  apply (dsum pts (fun t y => half_term g (Q y) i j t)). intros t It. unfold half_term. destruct (in_reach_dec d _) as [IR|IR]; [|apply (dlim_const 0)].
  destruct (contributes_dec _ _ _ _ _ _); [|apply (dlim_const 0)]. apply dcm. apply H; auto.
  unfold pair_W. apply in_flat_map. exists (i, j). split; auto. unfold pair_block. rewrite CO. apply in_flat_map. exists t. split; auto.
  destruct (in_reach_dec d _) as [IR'|IR']; [|contradiction]. destruct (Nat.eqb_spec i j) as [->|]; left; reflexivity.
Qed.
Lemma half_ext g K K' : (forall i j t, (i <= j < n)%nat -> in_reach d (pt_len e i j t) -> contributes d p (atom_no p i) (atom_no p j) t g -> K (i, j, t) = K' (i, j, t)) -> half_sum g K = half_sum g K'.
Proof.
  intros H. apply lsum_ext. intros [i j] I. apply half_in in I. cbn [fst snd]. destruct (counted _ _ i j); auto. apply lsum_ext. intros t _. unfold half_term.
  destruct (in_reach_dec d _); auto. destruct (contributes_dec _ _ _ _ _ _); auto. rewrite H; auto.
Qed.
Lemma half_scal g c K : half_sum g (fun z => c * K z) = c * half_sum g K.
Proof.
  unfold half_sum. rewrite <- lsum_scal. apply lsum_ext. intros [i j] _. cbn [fst snd]. destruct (counted _ _ i j); [|ring]. rewrite <- lsum_scal. apply lsum_ext. intros t _. unfold half_term.
  destruct (in_reach_dec d _); [|ring]. destruct (contributes_dec _ _ _ _ _ _); ring.
Qed.
Lemma half_zero g : half_sum g (fun _ => 0) = 0.
Proof. pose proof (half_scal g 0 (fun _ => 0)) as H. rewrite Rmult_0_l in H. etransitivity; [|exact H]. apply half_ext. intros; ring. Qed.

(** ** one pair *)
Hypothesis SP : sane_phase d p.
Variables (i j : nat) (t : Z * Z * Z) (g : Z).
Hypothesis HI : (i < n)%nat.
Hypothesis HJ : (j < n)%nat.
Hypothesis IR : in_reach d (pt_len e i j t).
Hypothesis CT : contributes d p (atom_no p i) (atom_no p j) t g.
Let r := pt_len e i j t.
Let s := pt_width d e i j t.
Let sp := sqrt (pt_msd e i j t).
Let N0 := normal s (grid d g - r).
Let dv k := dd p (atom_no p i) (atom_no p j) t k * cp_a0 p k.
Let sl := slope N0 (grid d g - r) s sp (ph_now p r).

Lemma r_pos : 0 < r. Proof. destruct IR. unfold r. lra. Qed.
Lemma msd_pos : 0 < pt_msd e i j t. Proof. destruct CT as (H & _). exact H. Qed.
Lemma wf_pos : 0 < width_factor d p r. Proof. destruct CT as (_ & H & _). exact H. Qed.
Lemma sp_pos : 0 < sp. Proof. apply sqrt_lt_R0, msd_pos. Qed.
Lemma sp_sq : sp * sp = pt_msd e i j t. Proof. apply sqrt_sqrt. pose proof msd_pos. lra. Qed.
Lemma s_pos : 0 < s. Proof. unfold s, pt_width. apply (width_pos d p SP). destruct CT as (H & H' & _). split; auto. Qed.
Lemma sr_pos : 0 < cp_sratio p. Proof. apply SP. Qed.
Lemma ph_pos : 0 < ph_now p r. Proof. unfold ph_now. pose proof sr_pos. destruct (Rlt_dec _ _); lra. Qed.
Lemma cell_pos : pos_cell p.
Proof. destruct SP as ((A & B & C & _) & _). intros k K. destruct k as [|[|[|k]]]; try lia; auto. Qed.

(** a family of phases and data sets through this one *)
Section Fam.
Variables (Dd : R -> cdata) (Ph : R -> cphase) (x0 : R).
Hypothesis DX : Dd x0 = d.
Hypothesis PX : Ph x0 = p.
Hypothesis GR : forall y, grid (Dd y) g = grid d g.
Let h y := sep (Ph y) (atom_no (Ph y) i) (atom_no (Ph y) j) t.
Let len y := length_of (Ph y) (h y).
Let dis y := msd (Ph y) (atom_no (Ph y) i) (atom_no (Ph y) j) (h y).
Lemma fam_height r' u' f' phi' : dl len x0 r' -> dl dis x0 u' -> dl (fun y => width_factor (Dd y) (Ph y) (len y)) x0 f' -> dl (fun y => ph_now (Ph y) (len y)) x0 phi' ->
  dl (fun y => pair_height (Dd y) (Ph y) (atom_no (Ph y) i) (atom_no (Ph y) j) t g) x0 (sl r' u' f' phi').
Proof.
  intros A B C D. pose proof (dheight Dd Ph x0 i j t g r' u' f' phi') as H. rewrite DX, PX in H. apply H; auto. exact msd_pos. exact wf_pos. exact ph_pos.
Qed.
Lemma fam_geo (Dl : nat -> R) eps : 0 < eps -> (forall y, right_angles (Ph y)) -> (forall y, Rabs (y - x0) < eps -> pos_cell (Ph y)) ->
  (forall y k, at_u (atom_no (Ph y) i) k = at_u (atom_no p i) k) -> (forall y k, at_u (atom_no (Ph y) j) k = at_u (atom_no p j) k) ->
  (forall k, (k < 3)%nat -> dl (fun y => edge_vec (Ph y) (h y) k) x0 (Dl k)) ->
  (forall y, cp_delta2 (Ph y) = cp_delta2 p) -> (forall y, cp_delta1 (Ph y) = cp_delta1 p) -> (forall y, cd_qbroad (Dd y) = cd_qbroad d) ->
  (forall y, cp_rcut (Ph y) = cp_rcut p) -> (forall y, cp_sratio (Ph y) = cp_sratio p) -> r <> cp_rcut p ->
  let r' := (dv 0%nat * Dl 0%nat + dv 1%nat * Dl 1%nat + dv 2%nat * Dl 2%nat) / r in
  let S := urow (fun k => at_u (atom_no p i) k + at_u (atom_no p j) k) dv in
  dl (fun y => pair_height (Dd y) (Ph y) (atom_no (Ph y) i) (atom_no (Ph y) j) t g) x0
     (sl r' (2 * ((S 0%nat * Dl 0%nat + S 1%nat * Dl 1%nat + S 2%nat * Dl 2%nat) / (r * r) - sp * sp * r' / r)) (fslope p (cd_qbroad d) r * r') 0).
Proof.
  intros EP RA PC Ui Uj DE E2 E1 EQ EC ES NE r' S.
  assert (LX : len x0 = r). { unfold len, h. rewrite PX. reflexivity. }
  assert (EV : forall k, (k < 3)%nat -> edge_vec (Ph x0) (h x0) k = dv k). { intros k K. unfold edge_vec, h, dv. rewrite PX. rewrite dd_sep by auto. reflexivity. }
  assert (DXX : dis x0 = sp * sp). { rewrite sp_sq. unfold dis, h. rewrite PX. reflexivity. }
  pose proof r_pos as RP.
  pose proof (dgeo Ph x0 i j t Dl eps EP RA PC) as X. fold h in X. change (fun y => length_of (Ph y) (h y)) with len in X. change (fun y => msd (Ph y) (atom_no (Ph y) i) (atom_no (Ph y) j) (h y)) with dis in X.
  destruct X as [DR DU]; auto. { intros y k. rewrite PX. apply Ui. } { intros y k. rewrite PX. apply Uj. } { fold (len x0). rewrite LX. auto. }
  fold (len x0) in DR, DU. rewrite LX in DR, DU. change (msd (Ph x0) (atom_no (Ph x0) i) (atom_no (Ph x0) j) (h x0)) with (dis x0) in DU. rewrite DXX in DU.
  unfold urow in DU. rewrite !EV in DR, DU by lia. rewrite PX in DU. fold r' in DR, DU.
  apply fam_height.
  - exact DR.
  - eapply dl_eq. exact DU. unfold S, urow. reflexivity.
  - pose proof (dfactor Dd Ph x0 i j t r') as X. rewrite DX, PX in X. apply X; auto. change (r <> 0). lra.
  - pose proof (dphi Ph x0 i j t r') as X. rewrite PX in X. apply X; auto. change (len x0 <> cp_rcut p). rewrite LX. exact NE.
Qed.
End Fam.

Lemma dsep (Ph : R -> cphase) x0 k a b : (k < 3)%nat -> (forall y, cp_icc (Ph y) = cp_icc p) -> dl (fun y => at_pos (atom_no (Ph y) i) k) x0 a -> dl (fun y => at_pos (atom_no (Ph y) j) k) x0 b ->
  dl (fun y => sep (Ph y) (atom_no (Ph y) i) (atom_no (Ph y) j) t k) x0 (a - b).
Proof.
  intros K IC A B. destruct t as [[m' n'] o']. 
  assert (X : forall c, dl (fun y => at_pos (atom_no (Ph y) i) k - (at_pos (atom_no (Ph y) j) k + c)) x0 (a - b)). { intros c. eapply dl_eq. apply dmi. exact A. apply dp. exact B. apply dlim_const. ring. }
  destruct k as [|[|[|k]]]; try lia; cbn [sep SphereSpec.vec3].
  - apply dlim_ext with (f := fun y => at_pos (atom_no (Ph y) i) 0%nat - (at_pos (atom_no (Ph y) j) 0%nat + IZR m' * IZR (cp_icc p 0))). intros; rewrite IC; reflexivity. apply X.
  - apply dlim_ext with (f := fun y => at_pos (atom_no (Ph y) i) 1%nat - (at_pos (atom_no (Ph y) j) 1%nat + IZR n' * IZR (cp_icc p 1))). intros; rewrite IC; reflexivity. apply X.
  - apply dlim_ext with (f := fun y => at_pos (atom_no (Ph y) i) 2%nat - (at_pos (atom_no (Ph y) j) 2%nat + IZR o' * IZR (cp_icc p 2))). intros; rewrite IC; reflexivity. apply X.
Qed.
Lemma slope_scal c r' u' f' phi' : sl (c * r') (c * u') (c * f') (c * phi') = c * sl r' u' f' phi'.
Proof. unfold sl, slope, wslope, Rdiv. ring. Qed.
(** the slope when component k of the vector moves by c *)
Definition one_slope (k : nat) (c : R) : R := mv_slope p (cd_qbroad d) (atom_no p i) (atom_no p j) (grid d g) r s sp N0 dv k c.
Lemma one_slope_scal k a c : one_slope k (a * c) = a * one_slope k c.
Proof.
  unfold one_slope, mv_slope. cbv zeta. fold sl.
  rewrite <- slope_scal. f_equal; unfold Rdiv; ring.
Qed.
Definition hit (i ia : nat) : R := if (i =? ia)%nat then 1 else 0.

Lemma dpos ia k x0 : (k < 3)%nat -> (ia < n)%nat -> right_angles p -> r <> cp_rcut p -> x0 = at_pos (atom_no p ia) k ->
  dl (fun y => let q := set_phase_atom ia (FPos k) y p in pair_height d q (atom_no q i) (atom_no q j) t g) x0 ((hit i ia - hit j ia) * one_slope k (cp_a0 p k)).
Proof.
  intros K IA RA NE X0. set (Ph := fun y => set_phase_atom ia (FPos k) y p).
  assert (PX : Ph x0 = p). { unfold Ph. rewrite X0. apply (set_phase_atom_same ia (FPos k)). }
  assert (AT : forall y i, atom_no (Ph y) i = if (ia =? i)%nat then set_atom_field (FPos k) y (atom_no p i) else atom_no p i) by (intros; apply atom_set; auto).
  assert (AP : forall i k', dl (fun y => at_pos (atom_no (Ph y) i) k') x0 (if (k' =? k)%nat then hit i ia else 0)).
  { intros i' k'. unfold hit. apply dlim_ext with (f := fun y => if (ia =? i')%nat then (if (k' =? k)%nat then y else at_pos (atom_no p i') k') else at_pos (atom_no p i') k').
    - intros y. rewrite AT. destruct (ia =? i')%nat; reflexivity.
    - rewrite (Nat.eqb_sym i' ia). destruct (ia =? i')%nat, (k' =? k)%nat; first [apply did | apply dlim_const]. }
  pose proof (fam_geo (fun _ => d) Ph x0 eq_refl PX (fun _ => eq_refl) (fun k' => (if (k' =? k)%nat then hit i ia - hit j ia else 0) * cp_a0 p k') 1 Rlt_0_1) as F.
  eapply dl_eq. apply F; auto.
  - intros y _. exact cell_pos.
  - intros y k'. rewrite AT. destruct (ia =? i)%nat; reflexivity.
  - intros y k'. rewrite AT. destruct (ia =? j)%nat; reflexivity.
  - intros k' K'. unfold edge_vec. apply dlim_ext with (f := fun y => sep (Ph y) (atom_no (Ph y) i) (atom_no (Ph y) j) t k' * cp_a0 p k'). reflexivity. apply dmc.
    eapply dl_eq. apply dsep; [exact K'|reflexivity|apply AP|apply AP]. destruct (k' =? k)%nat; ring.
  - rewrite <- one_slope_scal. unfold one_slope, mv_slope. cbv zeta. fold sl. clear F AP AT PX. destruct k as [|[|[|k]]]; try lia; cbn [Nat.eqb]; f_equal; unfold Rdiv; ring.
Qed.
Lemma dlength k x0 : (k < 3)%nat -> right_angles p -> r <> cp_rcut p -> x0 = cp_a0 p k ->
  dl (fun y => let q := set_phase_field (FA0 k) y p in pair_height d q (atom_no q i) (atom_no q j) t g) x0 (one_slope k (dv k / cp_a0 p k)).
Proof.
  intros K RA NE X0. pose proof (cell_pos k K) as AP. set (Ph := fun y => set_phase_field (FA0 k) y p).
  assert (PX : Ph x0 = p). { unfold Ph. rewrite X0. apply (set_phase_same (FA0 k)). }
  pose proof (fam_geo (fun _ => d) Ph x0 eq_refl PX (fun _ => eq_refl) (fun k' => if (k' =? k)%nat then dv k / cp_a0 p k else 0) (cp_a0 p k) AP) as F.
  eapply dl_eq. apply F; auto.
  - intros y H k' K'. unfold Ph, set_phase_field, set_v3. cbn [cp_a0]. destruct (Nat.eqb_spec k' k). subst k' x0. apply Rabs_def2 in H. lra. apply cell_pos; auto.
  - intros k' K'. unfold edge_vec. apply dlim_ext with (f := fun y => dd p (atom_no p i) (atom_no p j) t k' * (if (k' =? k)%nat then y else cp_a0 p k')).
    { intros y. rewrite dd_sep by auto. unfold Ph, set_phase_field, set_v3. cbn [cp_a0]. reflexivity. }
    destruct (Nat.eqb_spec k' k). subst k'. eapply dl_eq. apply dcm. apply did. unfold dv. field. lra. eapply dl_eq. apply dcm. apply dlim_const. ring.
  - unfold one_slope, mv_slope. cbv zeta. fold sl. clear F PX. destruct k as [|[|[|k]]]; try lia; cbn [Nat.eqb]; f_equal; unfold Rdiv; ring.
Qed.
Lemma dutens ia k x0 : (k < 6)%nat -> (ia < n)%nat -> right_angles p -> x0 = at_u (atom_no p ia) k ->
  dl (fun y => let q := set_phase_atom ia (FU k) y p in pair_height d q (atom_no q i) (atom_no q j) t g) x0 ((hit i ia + hit j ia) * sl 0 (uform dv k / (r * r)) 0 0).
Proof.
  intros K IA RA X0. set (Ph := fun y => set_phase_atom ia (FU k) y p).
  assert (PX : Ph x0 = p). { unfold Ph. rewrite X0. apply (set_phase_atom_same ia (FU k)). }
  assert (AT : forall y i, atom_no (Ph y) i = if (ia =? i)%nat then set_atom_field (FU k) y (atom_no p i) else atom_no p i) by (intros; apply atom_set; auto).
  assert (SE : forall y, sep (Ph y) (atom_no (Ph y) i) (atom_no (Ph y) j) t = sep p (atom_no p i) (atom_no p j) t).
  { intros y. rewrite !AT. destruct t as [[? ?] ?]. destruct (ia =? i)%nat, (ia =? j)%nat; reflexivity. }
  set (h := sep p (atom_no p i) (atom_no p j) t).
  assert (AU : forall i k', dl (fun y => at_u (atom_no (Ph y) i) k') x0 (if (k' =? k)%nat then hit i ia else 0)).
  { intros i' k'. unfold hit. apply dlim_ext with (f := fun y => if (ia =? i')%nat then (if (k' =? k)%nat then y else at_u (atom_no p i') k') else at_u (atom_no p i') k').
    - intros y. rewrite AT. destruct (ia =? i')%nat; reflexivity.
    - rewrite (Nat.eqb_sym i' ia). destruct (ia =? i')%nat, (k' =? k)%nat; first [apply did | apply dlim_const]. }
  assert (EV : forall k, (k < 3)%nat -> edge_vec p h k = dv k). { intros k' K'. unfold edge_vec, h, dv. rewrite dd_sep by auto. reflexivity. }
  pose proof r_pos as RP. assert (RR : r * r = dv 0%nat * dv 0%nat + dv 1%nat * dv 1%nat + dv 2%nat * dv 2%nat).
  { assert (RL : r = sqrt (dv 0%nat * dv 0%nat + dv 1%nat * dv 1%nat + dv 2%nat * dv 2%nat)). { unfold r, pt_len. fold p. fold h. rewrite len90 by auto. rewrite !EV by lia. reflexivity. }
    rewrite RL. apply sqrt_sqrt. nra. }
  assert (QP : 0 < dv 0%nat * dv 0%nat + dv 1%nat * dv 1%nat + dv 2%nat * dv 2%nat) by (rewrite <- RR; nra).
  eapply dl_eq. apply (fam_height (fun _ => d) Ph x0 eq_refl PX (fun _ => eq_refl) 0 ((hit i ia + hit j ia) * uform dv k / (r * r)) 0 0).
  - apply dlim_ext with (f := fun _ => r). { intros y. rewrite SE. reflexivity. } apply dlim_const.
  - apply dlim_ext with (f := fun y => quad (fun k' => at_u (atom_no (Ph y) i) k' + at_u (atom_no (Ph y) j) k') (dv 0%nat) (dv 1%nat) (dv 2%nat) / (r * r)).
    { intros y. rewrite SE. fold h. change (msd (Ph y) (atom_no (Ph y) i) (atom_no (Ph y) j) h) with (msd p (atom_no (Ph y) i) (atom_no (Ph y) j) h).
      rewrite msd90; auto. cbv zeta. rewrite !EV by lia. rewrite RR. reflexivity. apply cell_pos. cbv zeta. rewrite !EV by lia. auto. }
    unfold Rdiv at 1. apply dmc. eapply dl_eq. unfold quad. apply dp; [apply dp; [apply dp; [apply dp; [apply dp|]|]|]|]; apply dmc; first [apply dp; apply AU | apply dcm; apply dp; apply AU].
    clear - K. destruct k as [|[|[|[|[|[|k]]]]]]; [..|lia]; cbn [Nat.eqb uform]; ring.
  - apply dlim_ext with (f := fun _ => width_factor d p r). { intros y. rewrite SE. reflexivity. } apply dlim_const.
  - apply dlim_ext with (f := fun _ => ph_now p r). { intros y. rewrite SE. reflexivity. } apply dlim_const.
  - rewrite <- slope_scal. f_equal; unfold Rdiv; ring.
Qed.
Lemma ddelta2 x0 : x0 = cp_delta2 p -> dl (fun y => let q := set_phase_field FDelta2 y p in pair_height d q (atom_no q i) (atom_no q j) t g) x0 (sl 0 0 (- 1 / (r * r)) 0).
Proof.
  intros X0. pose proof r_pos as RP. apply (fam_height (fun _ => d) (fun y => set_phase_field FDelta2 y p) x0 eq_refl); [rewrite X0; apply (set_phase_same FDelta2)|intros; reflexivity|apply (dcst _ r); reflexivity|apply (dcst _ (pt_msd e i j t)); reflexivity| |apply (dcst _ (ph_now p r)); reflexivity].
  apply dlim_ext with (f := fun y => 1 - y * / (r * r) - cp_delta1 p / r + cd_qbroad d * cd_qbroad d * (r * r)). reflexivity.
  eapply dl_eq. apply dp. apply dmi. apply dmi. apply dlim_const. apply dmc. apply did. apply dlim_const. apply dlim_const. field. lra.
Qed.
Lemma ddelta1 x0 : x0 = cp_delta1 p -> dl (fun y => let q := set_phase_field FDelta1 y p in pair_height d q (atom_no q i) (atom_no q j) t g) x0 (sl 0 0 (- 1 / r) 0).
Proof.
  intros X0. pose proof r_pos as RP. apply (fam_height (fun _ => d) (fun y => set_phase_field FDelta1 y p) x0 eq_refl); [rewrite X0; apply (set_phase_same FDelta1)|intros; reflexivity|apply (dcst _ r); reflexivity|apply (dcst _ (pt_msd e i j t)); reflexivity| |apply (dcst _ (ph_now p r)); reflexivity].
  apply dlim_ext with (f := fun y => 1 - cp_delta2 p / (r * r) - y * / r + cd_qbroad d * cd_qbroad d * (r * r)). reflexivity.
  eapply dl_eq. apply dp. apply dmi. apply dmi. apply dlim_const. apply dlim_const. apply dmc. apply did. apply dlim_const. field. lra.
Qed.
Lemma dsratio x0 : x0 = cp_sratio p -> dl (fun y => let q := set_phase_field FSratio y p in pair_height d q (atom_no q i) (atom_no q j) t g) x0 (sl 0 0 0 (if Rlt_dec r (cp_rcut p) then 1 else 0)).
Proof.
  intros X0. apply (fam_height (fun _ => d) (fun y => set_phase_field FSratio y p) x0 eq_refl); [rewrite X0; apply (set_phase_same FSratio)|intros; reflexivity|apply (dcst _ r); reflexivity|apply (dcst _ (pt_msd e i j t)); reflexivity|apply (dcst _ (width_factor d p r)); reflexivity|].
  apply dlim_ext with (f := fun y => if Rlt_dec r (cp_rcut p) then y else 1). reflexivity. destruct (Rlt_dec r (cp_rcut p)). apply did. apply dlim_const.
Qed.
Lemma dqbroad x0 : x0 = cd_qbroad d -> dl (fun y => pair_height (set_set_field FQbroad y d) p (atom_no p i) (atom_no p j) t g) x0 (sl 0 0 (2 * cd_qbroad d * (r * r)) 0).
Proof.
  intros X0. apply (fam_height (fun y => set_set_field FQbroad y d) (fun _ => p) x0); [rewrite X0; apply (set_set_same FQbroad)|reflexivity|intros; reflexivity|apply (dcst _ r); reflexivity|apply (dcst _ (pt_msd e i j t)); reflexivity| |apply (dcst _ (ph_now p r)); reflexivity].
  apply dlim_ext with (f := fun y => 1 - cp_delta2 p / (r * r) - cp_delta1 p / r + y * y * (r * r)). reflexivity.
  eapply dl_eq. apply dp. apply dlim_const. apply dmc. apply dm; apply did. subst x0. ring.
Qed.

(** what the code adds *)
Definition pbase : R := at_occ (atom_no p i) * weight_no d p i * (at_occ (atom_no p j) * weight_no d p j).
Lemma nzs : r <> 0 /\ s <> 0 /\ sp <> 0 /\ cp_sratio p <> 0.
Proof. pose proof r_pos. pose proof s_pos. pose proof sp_pos. pose proof sr_pos. repeat split; lra. Qed.
Lemma ampl_base : pt_ampl d e i j = mult i j * pbase. Proof. reflexivity. Qed.
Lemma eff_pos ia k x : (k < 3)%nat -> right_angles p ->
  leffect (AV ip ia (FPos k)) (pt_labs d ip is e i j t g) (Some x) = Some (x + mult i j * (pbase * ((hit i ia - hit j ia) * one_slope k (cp_a0 p k)))).
Proof.
  intros K RA. destruct nzs as (R1 & R2 & R3 & R4). unfold pt_labs, pair_labs. rewrite pick_atom; [|cbn [af_ok]; apply Nat.ltb_lt; exact K|apply edits_len]. cbn [af_no].
  pose proof (fun x => edit_pos p (cd_qbroad d) (atom_no p i) (atom_no p j) (grid d g) r s sp (pt_ampl d e i j) N0 dv R1 R2 R3 R4 RA k x K) as E.
  fold (one_slope k (cp_a0 p k)) in E. unfold hit, nop at 2 4. destruct (i =? ia)%nat.
  - match goal with |- context [nth (2 * k) ?l nop (Some x)] => replace (nth (2 * k) l nop (Some x)) with (Some (x + pt_ampl d e i j * one_slope k (cp_a0 p k))) by (symmetry; exact (proj1 (E x))) end.
    destruct (j =? ia)%nat.
    + etransitivity. exact (proj2 (E _)). rewrite ampl_base. f_equal. ring.
    + rewrite ampl_base. f_equal. ring.
  - destruct (j =? ia)%nat.
    + etransitivity. exact (proj2 (E _)). rewrite ampl_base. f_equal. ring.
    + f_equal. ring.
Qed.
Lemma eff_u ia k x : (k < 6)%nat ->
  leffect (AV ip ia (FU k)) (pt_labs d ip is e i j t g) (Some x) = Some (x + mult i j * (pbase * ((hit i ia + hit j ia) * sl 0 (uform dv k / (r * r)) 0 0))).
Proof.
  intros K. destruct nzs as (R1 & R2 & R3 & R4). unfold pt_labs, pair_labs. rewrite pick_atom; [|cbn [af_ok]; apply Nat.ltb_lt; exact K|apply edits_len]. cbn [af_no].
  pose proof (fun x => edit_u p (cd_qbroad d) (atom_no p i) (atom_no p j) (grid d g) r s sp (pt_ampl d e i j) N0 dv R1 R2 R3 R4 k x K) as E. cbv zeta in E. fold sl in E.
  unfold hit, nop at 2 4. set (q := sl 0 (uform dv k / (r * r)) 0 0) in *. destruct (i =? ia)%nat.
  - match goal with |- context [nth (2 * (3 + k)) ?l nop (Some x)] => replace (nth (2 * (3 + k)) l nop (Some x)) with (Some (x + pt_ampl d e i j * q)) by (symmetry; exact (proj1 (E x))) end.
    destruct (j =? ia)%nat.
    + etransitivity. exact (proj2 (E _)). rewrite ampl_base. f_equal. ring.
    + rewrite ampl_base. f_equal. ring.
  - destruct (j =? ia)%nat.
    + etransitivity. exact (proj2 (E _)). rewrite ampl_base. f_equal. ring.
    + f_equal. ring.
Qed.
Lemma eff_occ ia x : at_occ (atom_no p ia) <> 0 ->
  leffect (AV ip ia FOcc) (pt_labs d ip is e i j t g) (Some x) = Some (x + mult i j * (pbase * N0 * ((hit i ia + hit j ia) / at_occ (atom_no p ia)))).
Proof.
  intros O. destruct nzs as (R1 & R2 & R3 & R4). unfold pt_labs, pair_labs. rewrite pick_atom; [|reflexivity|apply edits_len]. cbn [af_no Nat.mul Nat.add].
  pose proof (fun x => edit_occ p (cd_qbroad d) (atom_no p i) (atom_no p j) (grid d g) r s sp (pt_ampl d e i j) N0 dv x) as E.
  pose proof (fun x => edit_occ' p (cd_qbroad d) (atom_no p i) (atom_no p j) (grid d g) r s sp (pt_ampl d e i j) N0 dv x) as E'.
  assert (Oi : i = ia -> at_occ (atom_no p i) = at_occ (atom_no p ia)) by (intros ->; auto). assert (Oj : j = ia -> at_occ (atom_no p j) = at_occ (atom_no p ia)) by (intros ->; auto).
  unfold hit, nop at 2 4. destruct (Nat.eqb_spec i ia) as [Ei|Ei].
  - match goal with |- context [nth 18 ?l nop (Some x)] => replace (nth 18 l nop (Some x)) with (Some (x + pt_ampl d e i j * N0 / at_occ (atom_no p i))) by (symmetry; apply (E x); rewrite Oi; auto) end.
    rewrite (Oi Ei). destruct (Nat.eqb_spec j ia) as [Ej|Ej].
    + etransitivity. apply (E' _). rewrite Oj; auto. rewrite ampl_base, (Oj Ej). f_equal. field. auto.
    + rewrite ampl_base. f_equal. field. auto.
  - destruct (Nat.eqb_spec j ia) as [Ej|Ej].
    + etransitivity. apply (E' _). rewrite Oj; auto. rewrite ampl_base, (Oj Ej). f_equal. field. auto.
    + f_equal. unfold Rdiv. ring.
Qed.
Lemma eff_len k x : (k < 3)%nat -> right_angles p ->
  leffect (PV ip (FA0 k)) (pt_labs d ip is e i j t g) (Some x) = Some (x + mult i j * (pbase * one_slope k (dv k / cp_a0 p k))).
Proof.
  intros K RA. destruct nzs as (R1 & R2 & R3 & R4). unfold pt_labs, pair_labs. rewrite pick_phase; [|cbn [pf_ok]; apply Nat.ltb_lt; exact K|apply edits_len]. cbn [pf_no].
  assert (A0 : cp_a0 p k <> 0) by (pose proof (cell_pos k K); lra).
  etransitivity. exact (edit_len p (cd_qbroad d) (atom_no p i) (atom_no p j) (grid d g) r s sp (pt_ampl d e i j) N0 dv R1 R2 R3 R4 RA k x K A0). rewrite ampl_base. f_equal. unfold one_slope. ring.
Qed.
Lemma eff_ang k x : (k < 3)%nat ->
  leffect (PV ip (FWin k)) (pt_labs d ip is e i j t g) (Some x) = Some (x + mult i j * (pbase * ang_slope p (cd_qbroad d) (grid d g) r s sp N0 dv k)).
Proof.
  intros K. destruct nzs as (R1 & R2 & R3 & R4). unfold pt_labs, pair_labs. rewrite pick_phase; [|cbn [pf_ok]; apply Nat.ltb_lt; exact K|apply edits_len]. cbn [pf_no].
  etransitivity. exact (edit_ang p (cd_qbroad d) (atom_no p i) (atom_no p j) (grid d g) r s sp (pt_ampl d e i j) N0 dv R1 R2 R3 R4 k x K). rewrite ampl_base. f_equal. ring.
Qed.
Lemma eff_delta2 x : leffect (PV ip FDelta2) (pt_labs d ip is e i j t g) (Some x) = Some (x + mult i j * (pbase * sl 0 0 (- 1 / (r * r)) 0)).
Proof.
  destruct nzs as (R1 & R2 & R3 & R4). unfold pt_labs, pair_labs. rewrite pick_phase; [|reflexivity|apply edits_len]. cbn [pf_no Nat.add].
  etransitivity. exact (edit_delta2 p (cd_qbroad d) (atom_no p i) (atom_no p j) (grid d g) r s sp (pt_ampl d e i j) N0 dv R1 R2 R3 R4 x). rewrite ampl_base. f_equal. unfold sl. ring.
Qed.
Lemma eff_delta1 x : leffect (PV ip FDelta1) (pt_labs d ip is e i j t g) (Some x) = Some (x + mult i j * (pbase * sl 0 0 (- 1 / r) 0)).
Proof.
  destruct nzs as (R1 & R2 & R3 & R4). unfold pt_labs, pair_labs. rewrite pick_phase; [|reflexivity|apply edits_len]. cbn [pf_no Nat.add].
  etransitivity. exact (edit_delta1 p (cd_qbroad d) (atom_no p i) (atom_no p j) (grid d g) r s sp (pt_ampl d e i j) N0 dv R1 R2 R3 R4 x). rewrite ampl_base. f_equal. unfold sl. ring.
Qed.
Lemma eff_sratio x : leffect (PV ip FSratio) (pt_labs d ip is e i j t g) (Some x) = Some (x + mult i j * (pbase * sl 0 0 0 (if Rlt_dec r (cp_rcut p) then 1 else 0))).
Proof.
  destruct nzs as (R1 & R2 & R3 & R4). unfold pt_labs, pair_labs. rewrite pick_phase; [|reflexivity|apply edits_len]. cbn [pf_no Nat.add].
  etransitivity. exact (edit_sratio p (cd_qbroad d) (atom_no p i) (atom_no p j) (grid d g) r s sp (pt_ampl d e i j) N0 dv R2 R3 R4 x). rewrite ampl_base. f_equal. unfold sl. ring.
Qed.
Lemma eff_qbroad x : leffect (SV is FQbroad) (pt_labs d ip is e i j t g) (Some x) = Some (x + mult i j * (pbase * sl 0 0 (2 * cd_qbroad d * (r * r)) 0)).
Proof.
  destruct nzs as (R1 & R2 & R3 & R4). unfold pt_labs, pair_labs. rewrite pick_set; [|apply edits_len]. rewrite Nat.eqb_refl.
  etransitivity. exact (edit_qbroad p (cd_qbroad d) (atom_no p i) (atom_no p j) (grid d g) r s sp (pt_ampl d e i j) N0 dv R2 R3 R4 x). rewrite ampl_base. f_equal. unfold sl. ring.
Qed.
End Core.
