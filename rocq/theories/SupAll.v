(** Proofs: larger cells written cell by cell. *)
From Coq Require Import List Arith ZArith Reals Bool Lia Lra Permutation.
From Verif Require Import Base RSum MathModel MetricModel MetricSpec MetricProof SphereModel SphereSpec SphereProof PdfModel PdfSpec PdfProof PdfGeo PdfSum PdfPeak PdfPhase PdfFft PdfTotal PdfEx PdfFinal RelSpec RelProof RelFinal RelList RelTheory RelEx RelAll SupSpec SupProof SupFinal.
Import ListNotations.
Local Open Scope R_scope.

Lemma nth_blocks {A B} (f : A -> list B) (n : nat) (a0 : A) (b0 : B) : (n <> 0)%nat -> forall L, (forall a, In a L -> length (f a) = n) ->
  forall x, (x < length L * n)%nat -> nth x (flat_map f L) b0 = nth (x mod n) (f (nth (x / n) L a0)) b0 /\ (x / n < length L)%nat.
Proof.
  intros N0. induction L as [|a L IH]; intros F x Hx; cbn [length] in Hx. lia. cbn [flat_map]. assert (La : length (f a) = n) by (apply F; left; auto).
  destruct (lt_dec x n) as [X|X].
  - rewrite app_nth1 by lia. rewrite Nat.mod_small, Nat.div_small by auto. cbn. split; auto. lia.
  - rewrite app_nth2 by lia. rewrite La. destruct (IH ltac:(intros; apply F; right; auto) (x - n)%nat ltac:(lia)) as (E & B0).
    assert (D : (x / n = S ((x - n) / n))%nat). { replace x with ((x - n) + 1 * n)%nat at 1 by lia. rewrite Nat.div_add by auto. lia. }
    assert (MM : (x mod n = (x - n) mod n)%nat). { replace x with ((x - n) + 1 * n)%nat at 1 by lia. apply Nat.mod_add; auto. }
    rewrite D, MM. cbn [nth length]. split; auto. lia.
Qed.
Lemma blocks_len {A B} (f : A -> list B) n L : (forall a, In a L -> length (f a) = n) -> length (flat_map f L) = (length L * n)%nat.
Proof. induction L as [|a L IH]; intros H; cbn; auto. rewrite app_length, IH by (intros; apply H; right; auto). rewrite H by (left; auto). auto. Qed.

Definition which (k : trip) (n x : nat) : trip := nth (x / n) (cells k) (0, 0, 0)%Z.
Lemma enlarged_natoms k p : natoms (enlarged k p) = (length (cells k) * natoms p)%nat.
Proof. unfold natoms, enlarged. cbn [recelled cp_atoms]. apply blocks_len. intros; apply map_length. Qed.
Lemma enlarged_copies k p : (forall j, (j < 3)%nat -> (1 <= comp k j)%Z) -> copies k p (enlarged k p) (fun x => x mod natoms p)%nat (which k (natoms p)).
Proof.
  intros K1. set (n := natoms p). assert (Z0 : forall x, (x < natoms (enlarged k p))%nat -> (n <> 0)%nat). { intros x. rewrite enlarged_natoms. fold n. destruct n; lia. }
  assert (BB : forall x, (x < natoms (enlarged k p))%nat -> (x mod n < n)%nat /\ In (which k n x) (cells k) /\ atom_no (enlarged k p) x = copy k (cp_icc p) (which k n x) (atom_no p (x mod n))).
  { intros x Hx. pose proof (Z0 x Hx) as NZ. rewrite enlarged_natoms in Hx. fold n in Hx. assert (MB : (x mod n < n)%nat) by (apply Nat.mod_upper_bound; auto).
    destruct (nth_blocks (fun o => map (copy k (cp_icc p) o) (cp_atoms p)) n (0, 0, 0)%Z no_atom NZ (cells k) ltac:(intros; apply map_length) x Hx) as (E & B). split; auto. split. apply nth_In; auto.
    unfold atom_no at 1. unfold enlarged. cbn [recelled cp_atoms]. rewrite E. fold (which k n x). unfold atom_no. rewrite (nth_indep _ no_atom (copy k (cp_icc p) (which k n x) no_atom)) by (rewrite map_length; exact MB). apply map_nth. }
  split; auto. split; [reflexivity|]. split; [|split].
  - intros x Hx. destruct (BB x Hx) as (B1 & B2 & B3). split; auto. split. apply cells_in; auto. rewrite B3. repeat split.
  - intros i c Hi Hc. fold n in Hi. apply cells_in in Hc. destruct (In_nth _ _ (0, 0, 0)%Z Hc) as (q & Hq & E). exists (i + q * n)%nat. split; [|split].
    + rewrite enlarged_natoms. fold n. assert (S q * n <= length (cells k) * n)%nat by (apply Nat.mul_le_mono_r; exact Hq). cbn in *. lia. + rewrite Nat.mod_add by lia. apply Nat.mod_small; auto.
    + unfold which. rewrite Nat.div_add by lia. rewrite Nat.div_small by auto. exact E.
  - intros x y Hx Hy E1 E2. pose proof (Z0 x Hx) as NZ. rewrite enlarged_natoms in Hx, Hy. fold n in Hx, Hy. unfold which in E2. apply NoDup_nth in E2; [| apply cells_nodup | |].
    + rewrite (Nat.div_mod x n), (Nat.div_mod y n) by auto. rewrite E1, E2. auto.
    + apply Nat.div_lt_upper_bound; auto. rewrite Nat.mul_comm; auto. + apply Nat.div_lt_upper_bound; auto. rewrite Nat.mul_comm; auto.
Qed.

(** a larger cell can be calculated when the smaller one can *)
Lemma copies_sane d k p p' m o : copies k p p' m o -> sane_phase d p -> sane_phase d p'.
Proof.
  intros (K1 & E & M & SUR & INJ) SP. pose proof (sane_det d p SP) as DT. destruct SP as ((A & B & C & A1 & A2 & A3 & GR) & T & I & OC & MN & SF & U & SR).
  remember (cp_atoms p') as l. clear Heql. subst p'. set (e := mkEnt p (mkDer (mkLat 0 (fun _ => 0) (fun _ => 0) (fun _ _ => 0) (fun _ _ => 0)) 0 None) (fun _ => false) (fun _ => false)).
  pose proof (kpos_ k K1 0%nat ltac:(lia)). pose proof (kpos_ k K1 1%nat ltac:(lia)). pose proof (kpos_ k K1 2%nat ltac:(lia)). pose proof (Kpos_ k K1) as KP.
  split. { cbn [recelled cp_a0 cp_win]. split. apply Rmult_lt_0_compat; auto. split. apply Rmult_lt_0_compat; auto. split. apply Rmult_lt_0_compat; auto. tauto. }
  split. { intros i j Hi Hj D. pose proof (sup_metric e k l i j Hi Hj) as SM. cbn [e en_ph] in SM. rewrite SM. destruct (T i j Hi Hj D) as [Z|Z]. left. rewrite Z. ring. right. rewrite Rabs_mult.
    assert (X : 1 <= Rabs (IZR (comp k i) * IZR (comp k j))). { rewrite <- mult_IZR. rewrite Rabs_right. apply IZR_le. specialize (K1 i Hi) as Y1. specialize (K1 j Hj) as Y2. nia. apply Rle_ge, IZR_le. specialize (K1 i Hi) as Y1. specialize (K1 j Hj) as Y2. nia. }
    pose proof (Rabs_pos (metric (cp_a0 p) (cp_win p) i j)). nra. }
  split. exact I. split. { pose proof (sup_occ e k l m o K1 M SUR INJ) as X. cbn [e en_ph] in X. rewrite X. apply Rmult_integral_contrapositive. split; auto. lra. }
  split. { pose proof (sup_mean d e k l m o K1 M SUR INJ OC) as X. cbn [e en_ph] in X. rewrite X. auto. }
  split. { rewrite (rsum_ext _ _ (fun x => at_sf (atom_no p (m x)) (cd_type d))). 2:{ intros x Hx. destruct (M x Hx) as (_ & _ & _ & -> & _). auto. }
    pose proof (sum_sites e k l m o K1 M SUR INJ (fun i => at_sf (atom_no p i) (cd_type d))) as X. cbn [e en_ph] in X. rewrite X. apply Rmult_integral_contrapositive. split; auto. lra. }
  split; auto. intros x y h Hx Hy. destruct (M x Hx) as (Mx & _ & Ux & _), (M y Hy) as (My & _ & Uy & _).
  pose proof (sup_msd e k l K1 DT (fun j => IZR (comp k j) * h j) h (fun j _ => eq_refl) (atom_no p (m x)) (atom_no p (m y)) _ _ Ux Uy) as X. cbn [e en_ph] in X. rewrite X. auto.
Qed.
Lemma copies_calculable k p p' m o : copies k p p' m o -> calculable p -> calculable p'.
Proof.
  intros (K1 & E & _) ((de & L) & (A & B & C & R) & I & S). rewrite E.
  pose proof (kpos_ k K1 0%nat ltac:(lia)). pose proof (kpos_ k K1 1%nat ltac:(lia)). pose proof (kpos_ k K1 2%nat ltac:(lia)).
  split; [|split; [|split]]; auto.
  - unfold phase_lattice in *. rewrite lattice_spec in *. cbn [recelled cp_a0 cp_win]. destruct (Rle_dec _ _); try discriminate. eexists. reflexivity.
  - cbn [recelled cp_a0 cp_win]. split. apply Rmult_lt_0_compat; auto. split. apply Rmult_lt_0_compat; auto. split. apply Rmult_lt_0_compat; auto. exact R.
Qed.
Lemma enlarged_plain k p : (forall j, (j < 3)%nat -> (1 <= comp k j)%Z) -> plain p -> plain (enlarged k p).
Proof.
  intros K1 (I & S & P & C). pose proof (enlarged_copies k p K1) as E. split; [exact I|]. split; [exact S|]. split; [|eapply copies_calculable; eauto].
  destruct E as (_ & _ & M & _). intros x j Hx Hj. destruct (M x Hx) as (Mx & Cx & _ & _ & _ & Px). rewrite Px, I by auto. specialize (P _ j Mx Hj). specialize (Cx j Hj). pose proof (kpos_ k K1 j Hj).
  apply Rmult_le_pos; [|left; apply Rinv_0_lt_compat; auto]. assert (0 <= IZR (comp (which k (natoms p) x) j)) by (apply IZR_le; lia). lra.
Qed.

Lemma enlarged_same d k p de gi gj : good_grid d -> off_origin d -> good_filter d -> (forall j, (j < 3)%nat -> (1 <= comp k j)%Z) ->
  sane_phase d p -> phase_lattice p = Ok de -> (forall j, cp_icc p j = 1%Z) -> one_cell p -> cp_stepcut p <= 0 ->
  exists de', phase_lattice (enlarged k p) = Ok de' /\
  same_pdf d [Some (mkEnt p de gi gj)] [Some (mkEnt (enlarged k p) de' (fun x => gi (x mod natoms p)%nat) (fun x => gj (x mod natoms p)%nat))].
Proof.
  intros G O F K1 SP L I OC ST. pose proof (enlarged_copies k p K1) as E.
  assert (CL : calculable p). { destruct SP as (A & _ & _ & _ & _ & _ & _ & SR). split. eauto. split; auto. split. intros j. rewrite I. lia. lra. }
  destruct (copies_calculable _ _ _ _ _ E CL) as ((de' & L') & _). exists de'. split; auto.
  assert (SC : supercell k (mkEnt p de gi gj) (mkEnt (enlarged k p) de' (fun x => gi (x mod natoms p)%nat) (fun x => gj (x mod natoms p)%nat))). { eexists. eexists. split. exact E. auto. }
  assert (C1 : complete (mkEnt p de gi gj)) by (split; auto).
  apply material_same; auto.
  - apply ready1. split; auto.
  - apply ready1. split; [exact L'|]. eapply copies_sane; eauto.
  - apply complete1. exact C1.
  - apply complete1. apply (super_complete k (mkEnt p de gi gj)); [exact I|exact C1|exact SC].
  - apply rel1. right. exists k. exact SC.
Qed.
Lemma enlarged_theory k ph sets : (forall j, (j < 3)%nat -> (1 <= comp k j)%Z) -> Forall plain ph ->
  (forall s, In s sets -> good_grid (cs_data s) /\ off_origin (cs_data s) /\ good_filter (cs_data s) /\ everything s /\ forall p, In p ph -> sane_phase (cs_data s) p) ->
  exists f0, forall fuel, (f0 <= fuel)%nat -> exists n r, fit_theory fuel ph sets = Ok (map wrap_phase ph, n, r) /\ fit_theory fuel (map (enlarged k) ph) sets = Ok (map wrap_phase (map (enlarged k) ph), n, r).
Proof.
  intros K1 Q H. apply theory_crystal; auto.
  - clear H Q. induction ph; constructor; auto. right. exists k. eexists. eexists. apply enlarged_copies; auto.
  - apply Forall_map. eapply Forall_impl; [|exact Q]. intros p. apply enlarged_plain; auto.
  - intros s I. destruct (H s I) as (A & B & C & D & E). split; [exact A|]. split; [exact B|]. split; [exact C|]. split; [exact D|]. intros p [J|J]; [apply E; exact J|]. apply in_map_iff in J. destruct J as (q & <- & J). eapply copies_sane. apply enlarged_copies; auto. auto.
Qed.
