(** Distances, displacements and heights of a pair when something moves. *)
From Coq Require Import List Arith ZArith Reals Bool Lia Lra FunctionalExtensionality.
From Verif Require Import Base RSum MathModel ParserDeriv MathProof MetricModel MetricSpec MetricProof PdfModel PdfSpec PdfTotal PdfPeak LayoutModel DerivModel DerivSpec DerivRow DerivPair DerivCalc DerivPeak.
Import ListNotations.
Local Open Scope R_scope.

(** ** putting the value back changes nothing *)
Lemma set_v3_same k v : set_v3 k (v k) v = v.
Proof. apply functional_extensionality. intros i. unfold set_v3. destruct (Nat.eqb_spec i k); subst; auto. Qed.
Lemma set_phase_same f p : set_phase_field f (phase_value f p) p = p.
Proof. destruct p, f; cbn; rewrite ?set_v3_same; auto. Qed.
Lemma set_atom_same f a : set_atom_field f (atom_value f a) a = a.
Proof. destruct a, f; cbn; rewrite ?set_v3_same; auto. Qed.
Lemma set_set_same f d : set_set_field f (set_value f d) d = d.
Proof. destruct d, f; reflexivity. Qed.
Lemma on_nth_len {A} (h : A -> A) : forall l n, length (on_nth n h l) = length l.
Proof. induction l; destruct n; simpl; auto. Qed.
Lemma on_nth_nth {A} (h : A -> A) d : forall l n i, (n < length l)%nat -> nth i (on_nth n h l) d = if (n =? i)%nat then h (nth i l d) else nth i l d.
Proof.
  induction l as [|a l IH]; intros n i L; simpl in L; [lia|]. destruct n, i; simpl; auto. apply IH. lia.
Qed.
Lemma on_nth_same {A} (h : A -> A) d : forall l n, h (nth n l d) = nth n l d -> on_nth n h l = l.
Proof. induction l as [|a l IH]; intros n H; destruct n; simpl in *; auto. congruence. f_equal. auto. Qed.
Lemma set_phase_atom_same ia f p : set_phase_atom ia f (atom_value f (atom_no p ia)) p = p.
Proof. unfold set_phase_atom. rewrite (on_nth_same _ no_atom). destruct p; auto. apply set_atom_same. Qed.
Lemma atom_set ia f y p i : (ia < natoms p)%nat -> atom_no (set_phase_atom ia f y p) i = if (ia =? i)%nat then set_atom_field f y (atom_no p i) else atom_no p i.
Proof. intros H. unfold atom_no, set_phase_atom. cbn [cp_atoms]. apply on_nth_nth. exact H. Qed.
Lemma natoms_set ia f y p : natoms (set_phase_atom ia f y p) = natoms p.
Proof. unfold natoms. cbn [cp_atoms set_phase_atom]. apply on_nth_len. Qed.

(** ** right angles *)
Lemma cell90 p i j : right_angles p -> cell_cos (cp_win p) i j = 0.
Proof.
  intros RA. unfold cell_cos. rewrite RA. exact cosd90. destruct (_ =? 1)%nat; try lia. destruct (_ =? 2)%nat; lia.
Qed.
Definition edge_vec (p : cphase) (h : v3) (k : nat) : R := h k * cp_a0 p k.
Lemma metric90 p i j : right_angles p -> metric (cp_a0 p) (cp_win p) i j = if (i =? j)%nat then cp_a0 p i * cp_a0 p i else 0.
Proof. intros RA. unfold metric. rewrite cell90 by auto. destruct (i =? j)%nat; ring. Qed.
Lemma dot90 p h : right_angles p -> dot33 (metric (cp_a0 p) (cp_win p)) h h =
  edge_vec p h 0 * edge_vec p h 0 + edge_vec p h 1 * edge_vec p h 1 + edge_vec p h 2 * edge_vec p h 2.
Proof. intros RA. unfold dot33. rewrite !metric90 by auto. cbn [Nat.eqb]. unfold edge_vec. ring. Qed.
Lemma len90 p h : right_angles p -> length_of p h = sqrt (edge_vec p h 0 * edge_vec p h 0 + edge_vec p h 1 * edge_vec p h 1 + edge_vec p h 2 * edge_vec p h 2).
Proof. intros RA. unfold length_of. rewrite dot90; auto. Qed.
Definition pos_cell (p : cphase) : Prop := forall k, (k < 3)%nat -> 0 < cp_a0 p k.
Lemma det90 p : right_angles p -> det33 (metric (cp_a0 p) (cp_win p)) = (cp_a0 p 0%nat * cp_a0 p 1%nat * cp_a0 p 2%nat) * (cp_a0 p 0%nat * cp_a0 p 1%nat * cp_a0 p 2%nat).
Proof. intros RA. unfold det33. rewrite !metric90 by auto. cbn [Nat.eqb]. ring. Qed.
Lemma vol90 p : right_angles p -> pos_cell p -> sqrt (det33 (metric (cp_a0 p) (cp_win p))) = cp_a0 p 0%nat * cp_a0 p 1%nat * cp_a0 p 2%nat.
Proof.
  intros RA PC. rewrite det90 by auto. apply sqrt_square. pose proof (PC 0%nat ltac:(lia)). pose proof (PC 1%nat ltac:(lia)). pose proof (PC 2%nat ltac:(lia)).
  apply Rmult_le_pos; [apply Rmult_le_pos|]; lra.
Qed.
Lemma rmetric90 p k : right_angles p -> pos_cell p -> (k < 3)%nat -> sqrt (rmetric (cp_a0 p) (cp_win p) k k) = / cp_a0 p k.
Proof.
  intros RA PC K. pose proof (PC 0%nat ltac:(lia)). pose proof (PC 1%nat ltac:(lia)). pose proof (PC 2%nat ltac:(lia)).
  assert (E : rmetric (cp_a0 p) (cp_win p) k k = / cp_a0 p k * / cp_a0 p k).
  { unfold rmetric. cbv zeta. rewrite det90 by auto. destruct k as [|[|[|k]]]; try lia; cbn [Nat.add Nat.modulo Nat.divmod fst snd Nat.sub]; rewrite !metric90 by auto; cbn [Nat.eqb]; field; lra. }
  rewrite E. apply sqrt_square. pose proof (PC k K). apply Rlt_le, Rinv_0_lt_compat; auto.
Qed.
Lemma msd90 p ai aj h : right_angles p -> pos_cell p -> let e := edge_vec p h in 0 < e 0%nat * e 0%nat + e 1%nat * e 1%nat + e 2%nat * e 2%nat ->
  msd p ai aj h = quad (fun k => at_u ai k + at_u aj k) (e 0%nat) (e 1%nat) (e 2%nat) / (e 0%nat * e 0%nat + e 1%nat * e 1%nat + e 2%nat * e 2%nat).
Proof.
  intros RA PC e P. pose proof (PC 0%nat ltac:(lia)). pose proof (PC 1%nat ltac:(lia)). pose proof (PC 2%nat ltac:(lia)).
  unfold msd. cbv zeta. rewrite !rmetric90 by (auto; lia). rewrite !metric90 by auto. cbn [Nat.eqb]. rewrite len90 by auto. fold e.
  set (q := e 0%nat * e 0%nat + _ + _) in *. pose proof (sqrt_lt_R0 _ P) as SP. set (l := sqrt q) in *. assert (Q : q = l * l) by (symmetry; apply sqrt_sqrt; lra).
  rewrite Q.
  assert (N0 : / cp_a0 p 0%nat * (cp_a0 p 0%nat * cp_a0 p 0%nat * h 0%nat + 0 * h 1%nat + 0 * h 2%nat) / l = e 0%nat / l) by (unfold e, edge_vec; field; lra).
  assert (N1 : / cp_a0 p 1%nat * (0 * h 0%nat + cp_a0 p 1%nat * cp_a0 p 1%nat * h 1%nat + 0 * h 2%nat) / l = e 1%nat / l) by (unfold e, edge_vec; field; lra).
  assert (N2 : / cp_a0 p 2%nat * (0 * h 0%nat + 0 * h 1%nat + cp_a0 p 2%nat * cp_a0 p 2%nat * h 2%nat) / l = e 2%nat / l) by (unfold e, edge_vec; field; lra).
  rewrite N0, N1, N2. unfold quad. field. lra.
Qed.

(** ** a moving pair *)
Section Moving.
Variables (Dd : R -> cdata) (Ph : R -> cphase) (x0 : R) (i j : nat) (t : Z * Z * Z).
Let h y := sep (Ph y) (atom_no (Ph y) i) (atom_no (Ph y) j) t.
Let len y := length_of (Ph y) (h y).
Let dis y := msd (Ph y) (atom_no (Ph y) i) (atom_no (Ph y) j) (h y).

Lemma dheight g r' u' f' phi' : (forall y, grid (Dd y) g = grid (Dd x0) g) -> 0 < dis x0 -> 0 < width_factor (Dd x0) (Ph x0) (len x0) -> 0 < ph_now (Ph x0) (len x0) ->
  dl len x0 r' -> dl dis x0 u' -> dl (fun y => width_factor (Dd y) (Ph y) (len y)) x0 f' -> dl (fun y => ph_now (Ph y) (len y)) x0 phi' ->
  dl (fun y => pair_height (Dd y) (Ph y) (atom_no (Ph y) i) (atom_no (Ph y) j) t g) x0
     (slope (pair_height (Dd x0) (Ph x0) (atom_no (Ph x0) i) (atom_no (Ph x0) j) t g) (grid (Dd x0) g - len x0)
        (width (Dd x0) (Ph x0) (atom_no (Ph x0) i) (atom_no (Ph x0) j) (h x0)) (sqrt (dis x0)) (ph_now (Ph x0) (len x0)) r' u' f' phi').
Proof.
  intros GR U F P Dr Du Df Dp.
  apply dlim_ext with (f := fun y => normal (sqrt (dis y) * sqrt (width_factor (Dd y) (Ph y) (len y)) * ph_now (Ph y) (len y)) (grid (Dd x0) g - len y)).
  { intros y. unfold pair_height, width. cbv zeta. fold (h y). fold (len y). fold (dis y). rewrite (GR y). reflexivity. }
  exact (dpeak len dis _ _ x0 r' u' f' phi' (grid (Dd x0) g) U F P Dr Du Df Dp).
Qed.

(** at right angles *)
Lemma dgeo (D : nat -> R) eps : 0 < eps -> (forall y, right_angles (Ph y)) -> (forall y, Rabs (y - x0) < eps -> pos_cell (Ph y)) ->
  (forall y k, at_u (atom_no (Ph y) i) k = at_u (atom_no (Ph x0) i) k) -> (forall y k, at_u (atom_no (Ph y) j) k = at_u (atom_no (Ph x0) j) k) ->
  0 < len x0 -> (forall k, (k < 3)%nat -> dl (fun y => edge_vec (Ph y) (h y) k) x0 (D k)) ->
  let e := edge_vec (Ph x0) (h x0) in let r' := (e 0%nat * D 0%nat + e 1%nat * D 1%nat + e 2%nat * D 2%nat) / len x0 in
  let S := urow (fun k => at_u (atom_no (Ph x0) i) k + at_u (atom_no (Ph x0) j) k) e in
  dl len x0 r' /\ dl dis x0 (2 * ((S 0%nat * D 0%nat + S 1%nat * D 1%nat + S 2%nat * D 2%nat) / (len x0 * len x0) - dis x0 * r' / len x0)).
Proof.
  intros EP RA PC Ui Uj LP DE e r' S.
  set (E k y := edge_vec (Ph y) (h y) k).
  assert (QP : 0 < E 0%nat x0 * E 0%nat x0 + E 1%nat x0 * E 1%nat x0 + E 2%nat x0 * E 2%nat x0).
  { unfold len in LP. rewrite len90 in LP by auto. fold (E 0%nat x0) (E 1%nat x0) (E 2%nat x0) in LP. destruct (Rlt_dec 0 (E 0%nat x0 * E 0%nat x0 + E 1%nat x0 * E 1%nat x0 + E 2%nat x0 * E 2%nat x0)); auto.
    rewrite sqrt_neg_0 in LP by lra. lra. }
  assert (LE : forall y, len y = sqrt (E 0%nat y * E 0%nat y + E 1%nat y * E 1%nat y + E 2%nat y * E 2%nat y)). { intros y. unfold len. rewrite len90 by auto. reflexivity. }
  assert (CQ : continuity_pt (fun y => E 0%nat y * E 0%nat y + E 1%nat y * E 1%nat y + E 2%nat y * E 2%nat y) x0).
  { eapply dcont. apply dp. apply dp. apply dm; apply (DE 0%nat); lia. apply dm; apply (DE 1%nat); lia. apply dm; apply (DE 2%nat); lia. }
  destruct (side_gt _ x0 0 CQ QP) as (e1 & E1 & SG).
  split.
  - apply dlim_ext with (f := fun y => sqrt (E 0%nat y * E 0%nat y + E 1%nat y * E 1%nat y + E 2%nat y * E 2%nat y)). { intros; symmetry; apply LE. }
    unfold r'. rewrite LE. exact (dlen (E 0%nat) (E 1%nat) (E 2%nat) x0 _ _ _ QP (DE 0%nat ltac:(lia)) (DE 1%nat ltac:(lia)) (DE 2%nat ltac:(lia))).
  - set (U := fun k => at_u (atom_no (Ph x0) i) k + at_u (atom_no (Ph x0) j) k).
    assert (DI : forall y, Rabs (y - x0) < Rmin eps e1 -> dis y = quad U (E 0%nat y) (E 1%nat y) (E 2%nat y) / (E 0%nat y * E 0%nat y + E 1%nat y * E 1%nat y + E 2%nat y * E 2%nat y)).
    { intros y Hy. unfold dis. rewrite msd90; auto. cbv zeta. fold (E 0%nat y) (E 1%nat y) (E 2%nat y). f_equal. unfold quad, U. rewrite !(Ui y), !(Uj y). reflexivity.
      apply PC. eapply Rlt_le_trans; eauto. apply Rmin_l. apply SG. eapply Rlt_le_trans; eauto. apply Rmin_r. }
    assert (MP : 0 < Rmin eps e1) by (apply Rmin_pos; auto).
    apply dl_local with (eps0 := Rmin eps e1) (f := fun y => quad U (E 0%nat y) (E 1%nat y) (E 2%nat y) / (E 0%nat y * E 0%nat y + E 1%nat y * E 1%nat y + E 2%nat y * E 2%nat y)); auto.
    { intros y Hy. rewrite DI; auto. }
    eapply dl_eq. exact (dquad U (E 0%nat) (E 1%nat) (E 2%nat) x0 _ _ _ QP (DE 0%nat ltac:(lia)) (DE 1%nat ltac:(lia)) (DE 2%nat ltac:(lia))).
    rewrite <- LE. assert (LL : len x0 * len x0 = E 0%nat x0 * E 0%nat x0 + E 1%nat x0 * E 1%nat x0 + E 2%nat x0 * E 2%nat x0) by (rewrite LE; apply sqrt_sqrt; lra).
    rewrite (DI x0). 2:{ rewrite Rminus_eq_0, Rabs_R0. auto. } rewrite <- LL. unfold r', S, urow, e, U. fold (E 0%nat x0) (E 1%nat x0) (E 2%nat x0). reflexivity.
Qed.
(** the width correction follows the distance *)
Lemma dfactor r' : (forall y, cp_delta2 (Ph y) = cp_delta2 (Ph x0)) -> (forall y, cp_delta1 (Ph y) = cp_delta1 (Ph x0)) -> (forall y, cd_qbroad (Dd y) = cd_qbroad (Dd x0)) ->
  len x0 <> 0 -> dl len x0 r' -> dl (fun y => width_factor (Dd y) (Ph y) (len y)) x0 (fslope (Ph x0) (cd_qbroad (Dd x0)) (len x0) * r').
Proof.
  intros E2 E1 EQ NZ Dr. apply dlim_ext with (f := fun y => 1 - cp_delta2 (Ph x0) / (len y * len y) - cp_delta1 (Ph x0) / len y + cd_qbroad (Dd x0) * cd_qbroad (Dd x0) * (len y * len y)).
  { intros y. unfold width_factor. rewrite (E1 y), (E2 y), (EQ y). reflexivity. }
  eapply dl_eq. apply dp. apply dmi. apply dmi. apply (dlim_const 1). apply (ddv (fun _ => cp_delta2 (Ph x0)) (fun y => len y * len y)). nra. apply dlim_const. apply dm; exact Dr.
  apply (ddv (fun _ => cp_delta1 (Ph x0)) len); auto. apply dlim_const. exact Dr. apply dcm. apply dm; exact Dr.
  unfold fslope. cbv beta. field. auto.
Qed.
(** the side of rcut does not change *)
Lemma dphi r' : (forall y, cp_rcut (Ph y) = cp_rcut (Ph x0)) -> (forall y, cp_sratio (Ph y) = cp_sratio (Ph x0)) -> len x0 <> cp_rcut (Ph x0) -> dl len x0 r' ->
  dl (fun y => ph_now (Ph y) (len y)) x0 0.
Proof.
  intros EC ES NE Dr. destruct (Rlt_dec (len x0) (cp_rcut (Ph x0))) as [L|L].
  - destruct (side_lt len x0 _ (dcont _ _ _ Dr) L) as (e & EP & H). apply dl_local with (eps0 := e) (f := fun _ => cp_sratio (Ph x0)); auto. 2: apply dlim_const.
    intros y Hy. unfold ph_now. rewrite (EC y), (ES y). destruct (Rlt_dec _ _) as [Q|Q]; auto. exfalso. apply Q, H; auto.
  - assert (L' : cp_rcut (Ph x0) < len x0) by lra.
    destruct (side_gt len x0 _ (dcont _ _ _ Dr) L') as (e & EP & H). apply dl_local with (eps0 := e) (f := fun _ => 1); auto. 2: apply dlim_const.
    intros y Hy. unfold ph_now. rewrite (EC y). specialize (H y Hy). destruct (Rlt_dec _ _) as [Q|Q]; auto. lra.
Qed.
End Moving.
