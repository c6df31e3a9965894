(** The PDF with fixed peak limits as a function of all variables together. *)
From Coq Require Import List Arith ZArith Reals Bool Lia Lra FunctionalExtensionality.
From Verif Require Import Base RSum MathModel ParserDeriv MathProof MetricModel MetricSpec MetricProof SphereSpec PdfModel PdfSpec PdfSum PdfPeak DerivCalc DerivSpec DerivSets DerivOps DerivOne DerivFinal GradFinal HadCalc.
Import ListNotations.
Local Open Scope R_scope.

Lemma det_pos a0 win : proper_cell (a0 0%nat) (a0 1%nat) (a0 2%nat) (win 0%nat) (win 1%nat) (win 2%nat) -> 0 < det33 (metric a0 win).
Proof.
  intros (A & B & C & _ & _ & _ & G). rewrite det_metric. unfold ccos. apply Rmult_lt_0_compat; auto. apply Rmult_lt_0_compat; apply Rmult_lt_0_compat; auto; apply Rmult_lt_0_compat; auto.
Qed.
Lemma gram_one x y z : 0 < gram x y z -> (-1 <= x <= 1) -> 0 < 1 - x * x.
Proof. intros G X. destruct (Req_dec (1 - x * x) 0) as [E|N]; [|nra]. exfalso. rewrite gram_sq, E in G. pose proof (Rle_0_sqr (x * y - z)) as Q. unfold Rsqr in Q. lra. Qed.
Lemma rmetric_pos a0 win k : (k < 3)%nat -> proper_cell (a0 0%nat) (a0 1%nat) (a0 2%nat) (win 0%nat) (win 1%nat) (win 2%nat) -> 0 < rmetric a0 win k k.
Proof.
  intros Hk PC. pose proof (det_pos a0 win PC) as DP. destruct PC as (A & B & C & _ & _ & _ & G).
  set (ca := cos (PI / 180 * win 0%nat)) in *. set (cb := cos (PI / 180 * win 1%nat)) in *. set (cg := cos (PI / 180 * win 2%nat)) in *.
  assert (Xa : 0 < 1 - ca * ca) by (apply (gram_one ca cb cg); auto; apply COS_bound).
  assert (Xb : 0 < 1 - cb * cb) by (apply (gram_one cb cg ca); [rewrite <- gram_perm1; auto|apply COS_bound]).
  assert (Xc : 0 < 1 - cg * cg) by (apply (gram_one cg ca cb); [rewrite gram_perm1; auto|apply COS_bound]).
  unfold rmetric. cbv zeta. apply Rdiv_lt_0_compat; auto.
  destruct k as [|[|[|k]]]; try lia; cbn [Nat.add Nat.modulo Nat.divmod fst snd Nat.sub]; unfold metric, cell_cos; cbn [Nat.eqb Nat.add]; fold ca cb cg.
  - replace (_ - _) with ((a0 1%nat * a0 1%nat) * (a0 2%nat * a0 2%nat) * (1 - ca * ca)) by ring. apply Rmult_lt_0_compat; auto. apply Rmult_lt_0_compat; apply Rmult_lt_0_compat; auto.
  - replace (_ - _) with ((a0 0%nat * a0 0%nat) * (a0 2%nat * a0 2%nat) * (1 - cb * cb)) by ring. apply Rmult_lt_0_compat; auto. apply Rmult_lt_0_compat; apply Rmult_lt_0_compat; auto.
  - replace (_ - _) with ((a0 0%nat * a0 0%nat) * (a0 1%nat * a0 1%nat) * (1 - cg * cg)) by ring. apply Rmult_lt_0_compat; auto. apply Rmult_lt_0_compat; apply Rmult_lt_0_compat; auto.
Qed.

Section Phase.
Variable vs : list nat.
Hypothesis ND : NoDup vs.
Variable e : nat -> R.
Notation Had := (Had vs e).
Notation Still := (Still vs e).
Variable P : (nat -> R) -> cphase.
Variable D : (nat -> R) -> cdata.
Variables igni ignj : nat -> bool.
Variable W : list pairT.
Variable C : pairT -> Z -> bool.
Variable g : Z.
(** what never changes *)
Hypothesis Kicc : forall m, cp_icc (P m) = cp_icc (P e).
Hypothesis Kcut : forall m, cp_stepcut (P m) = cp_stepcut (P e).
Hypothesis Krcut : forall m, cp_rcut (P m) = cp_rcut (P e).
Hypothesis Knat : forall m, natoms (P m) = natoms (P e).
Hypothesis Ksf : forall m i, at_sf (atom_no (P m) i) = at_sf (atom_no (P e) i).
Hypothesis Kgrid : forall m, grid (D m) g = grid (D e) g.
Hypothesis Ktype : forall m, cd_type (D m) = cd_type (D e).
(** what changes *)
Hypothesis Ha : forall k, Had (fun m => cp_a0 (P m) k).
Hypothesis Hw : forall k, Had (fun m => cp_win (P m) k).
Hypothesis Hpos : forall i k, Had (fun m => at_pos (atom_no (P m) i) k).
Hypothesis Hu : forall i k, Had (fun m => at_u (atom_no (P m) i) k).
Hypothesis Hocc : forall i, Had (fun m => at_occ (atom_no (P m) i)).
Hypothesis Hd2 : Had (fun m => cp_delta2 (P m)).
Hypothesis Hd1 : Had (fun m => cp_delta1 (P m)).
Hypothesis Hsc : Had (fun m => cp_pscale (P m)).
Hypothesis Hsr : Had (fun m => cp_sratio (P m)).
Hypothesis Hspd : Had (fun m => cp_spd (P m)).
Hypothesis Hqd : Had (fun m => cd_qdamp (D m)).
Hypothesis Hqb : Had (fun m => cd_qbroad (D m)).
Hypothesis Hds : Had (fun m => cd_dscale (D m)).
Hypothesis Nspd : cp_spd (P e) = 0 -> Still (fun m => cp_spd (P m)).
Hypothesis Noff : forall i j t, In (i, j, t) W -> length_of (P e) (sep (P e) (atom_no (P e) i) (atom_no (P e) j) t) = cp_rcut (P e) ->
  Still (fun m => length_of (P m) (sep (P m) (atom_no (P m) i) (atom_no (P m) j) t)).
(** the state of the calculation *)
Hypothesis SANE : sane_phase (D e) (P e).
Hypothesis RP : 0 < grid (D e) g.
Hypothesis LONG : forall i j t, In (i, j, t) W -> 0 < length_of (P e) (sep (P e) (atom_no (P e) i) (atom_no (P e) j) t).
Hypothesis CON : forall i j t, C (i, j, t) g = true -> contributes (D e) (P e) (atom_no (P e) i) (atom_no (P e) j) t g.

Lemma h_metric i j : Had (fun m => metric (cp_a0 (P m)) (cp_win (P m)) i j).
Proof.
  unfold metric. destruct (i =? j)%nat. apply had_mult; auto. apply had_mult. apply had_mult; auto. unfold cell_cos. apply had_cos. apply had_mult; auto. apply had_const.
Qed.
Lemma h_det : Had (fun m => det33 (metric (cp_a0 (P m)) (cp_win (P m)))).
Proof. unfold det33. repeat first [apply h_metric | apply had_minus | apply had_plus | apply had_mult]. Qed.
Lemma PCELL : proper_cell (cp_a0 (P e) 0%nat) (cp_a0 (P e) 1%nat) (cp_a0 (P e) 2%nat) (cp_win (P e) 0%nat) (cp_win (P e) 1%nat) (cp_win (P e) 2%nat).
Proof. apply SANE. Qed.
Lemma h_rmetric k : Had (fun m => rmetric (cp_a0 (P m)) (cp_win (P m)) k k).
Proof.
  unfold rmetric. cbv zeta. apply had_div. pose proof (det_pos _ _ PCELL). lra. apply had_minus; apply had_mult; apply h_metric. apply h_det.
Qed.
Lemma h_sep i j t k : Had (fun m => sep (P m) (atom_no (P m) i) (atom_no (P m) j) t k).
Proof.
  destruct t as [[a b] c]. unfold sep, vec3. 
  destruct k as [|[|k]]; (apply had_minus; [apply Hpos|apply had_plus; [apply Hpos|]]); apply had_still; intros m _; rewrite (Kicc m); reflexivity.
Qed.
Section Pair.
Variables (i j : nat) (t : Z * Z * Z).
Hypothesis IN : In (i, j, t) W.
Let h m := sep (P m) (atom_no (P m) i) (atom_no (P m) j) t.
Let r m := length_of (P m) (h m).
Lemma r_pos : 0 < r e. Proof. apply LONG; auto. Qed.
Lemma h_len : Had r.
Proof.
  unfold r, length_of. apply had_sqrt.
  - pose proof r_pos as Q. unfold r, length_of in Q. destruct (Rlt_dec 0 (dot33 (metric (cp_a0 (P e)) (cp_win (P e))) (h e) (h e))); auto. rewrite sqrt_neg_0 in Q by lra. lra.
  - unfold dot33. repeat apply had_plus; (apply had_mult; [apply had_mult; apply h_sep|apply h_metric]).
Qed.
Lemma h_n k : (k < 3)%nat -> Had (fun m => sqrt (rmetric (cp_a0 (P m)) (cp_win (P m)) k k) *
             (metric (cp_a0 (P m)) (cp_win (P m)) k 0%nat * h m 0%nat + metric (cp_a0 (P m)) (cp_win (P m)) k 1%nat * h m 1%nat + metric (cp_a0 (P m)) (cp_win (P m)) k 2%nat * h m 2%nat) / r m).
Proof.
  intros Hk. apply had_div. pose proof r_pos; lra. 2: apply h_len. apply had_mult. apply had_sqrt. apply rmetric_pos; auto. apply PCELL. apply h_rmetric.
  repeat apply had_plus; (apply had_mult; [apply h_metric|apply h_sep]).
Qed.
Lemma h_msd : Had (fun m => msd (P m) (atom_no (P m) i) (atom_no (P m) j) (h m)).
Proof.
  unfold msd. cbv zeta. fold (r e). assert (N : forall k, (k < 3)%nat -> _) by exact h_n. unfold r in N.
  repeat apply had_plus; (apply had_mult; [first [apply had_plus; apply Hu | apply had_mult; [apply had_const|apply had_plus; apply Hu]]|apply had_mult; apply N; lia]).
Qed.
Lemma h_factor : Had (fun m => width_factor (D m) (P m) (r m)).
Proof.
  pose proof r_pos as Q. pose proof h_len as L. unfold width_factor. apply had_plus. apply had_minus. apply had_minus. apply had_const. apply had_div; auto. nra. apply had_mult; auto. apply had_div; auto. lra.
  apply had_mult; apply had_mult; auto.
Qed.
Hypothesis CT : contributes (D e) (P e) (atom_no (P e) i) (atom_no (P e) j) t g.
Lemma h_width : Had (fun m => width (D m) (P m) (atom_no (P m) i) (atom_no (P m) j) (h m)).
Proof.
  destruct CT as (C1 & C2 & _). unfold width. cbv zeta. apply had_mult. apply had_mult. apply had_sqrt; auto. apply h_msd. apply had_sqrt; auto. apply h_factor.
  apply (had_ext _ _ (fun m => if Rlt_dec (r m) (cp_rcut (P e)) then cp_sratio (P m) else 1)). intros m. rewrite (Krcut m). reflexivity.
  apply had_side; auto. apply h_len. intros E. unfold r, h. apply Noff; auto. apply had_const.
Qed.
Lemma width_e : 0 < width (D e) (P e) (atom_no (P e) i) (atom_no (P e) j) (h e).
Proof.
  destruct CT as (C1 & C2 & _). unfold width. cbv zeta. apply Rmult_lt_0_compat. apply Rmult_lt_0_compat; apply sqrt_lt_R0; auto. destruct SANE as (_ & _ & _ & _ & _ & _ & _ & SR). destruct (Rlt_dec _ _); [exact SR|lra].
Qed.
Lemma h_height : Had (fun m => pair_height (D m) (P m) (atom_no (P m) i) (atom_no (P m) j) t g).
Proof.
  pose proof width_e as WP. assert (Q : 0 < sqrt (2 * PI)) by (apply sqrt_lt_R0; pose proof PI_RGT_0; lra).
  assert (HR : Had (fun m => grid (D m) g - length_of (P m) (h m))). { apply had_minus. apply had_still; intros m _; apply Kgrid. apply h_len. }
  unfold pair_height, normal. cbv zeta. apply had_mult. apply had_inv. fold (h e). nra. apply had_mult. apply h_width. apply had_const.
  apply had_exp. apply had_div. fold (h e). nra. apply had_opp. apply had_mult; apply HR. apply had_mult. apply had_const. apply had_mult; apply h_width.
Qed.
End Pair.

Lemma h_rsum (F : (nat -> R) -> nat -> R) : (forall i, Had (fun m => F m i)) -> Had (fun m => rsum (natoms (P m)) (F m)).
Proof. intros H. apply (had_ext _ _ (fun m => rsum (natoms (P e)) (fun i => F m i))). intros m. rewrite (Knat m). reflexivity. apply had_rsum. intros i _. apply H. Qed.
Lemma h_sf i : Had (fun m => at_sf (atom_no (P m) i) (cd_type (D m))).
Proof. apply had_still. intros m _. rewrite (Ksf m), (Ktype m). reflexivity. Qed.
Lemma h_occ : Had (fun m => occ_sum (P m)).
Proof. unfold occ_sum. apply h_rsum. auto. Qed.
Lemma OCC : occ_sum (P e) <> 0. Proof. destruct SANE as (_ & _ & _ & X & _). exact X. Qed.
Lemma MSF : mean_sf (D e) (P e) <> 0. Proof. destruct SANE as (_ & _ & _ & _ & X & _). exact X. Qed.
Lemma h_mean : Had (fun m => mean_sf (D m) (P m)).
Proof. unfold mean_sf. apply had_div. apply OCC. apply h_rsum. intros i. apply had_mult; auto. apply h_sf. apply h_occ. Qed.
Lemma h_weight i : Had (fun m => weight_no (D m) (P m) i).
Proof. unfold weight_no. apply had_div. apply MSF. apply h_sf. apply h_mean. Qed.
Lemma WSUM : rsum (natoms (P e)) (weight_no (D e) (P e)) <> 0.
Proof.
  unfold weight_no. unfold Rdiv. rewrite rsum_scal_r. apply Rmult_integral_contrapositive_currified. destruct SANE as (_ & _ & _ & _ & _ & X & _); exact X. apply Rinv_neq_0_compat. apply MSF.
Qed.
Lemma h_share : Had (fun m => counted_share (D m) (P m) igni ignj).
Proof.
  unfold counted_share. apply had_div. apply Rmult_integral_contrapositive_currified; apply WSUM.
  - apply h_rsum. intros i. apply h_rsum. intros j. apply had_bool. intros _. apply had_mult; apply h_weight.
  - apply had_mult; apply (h_rsum (fun m i => weight_no (D m) (P m) i)); intros; apply h_weight.
Qed.
Lemma h_density : Had (fun m => density (P m)).
Proof.
  unfold density. assert (DP := det_pos _ _ PCELL). apply had_div. apply Rmult_integral_contrapositive_currified. destruct SANE as (_ & _ & I & _). pose proof (I 0%nat). pose proof (I 1%nat). pose proof (I 2%nat). apply not_0_IZR. assert (0 < cp_icc (P e) 0 * cp_icc (P e) 1)%Z by lia. nia.
  pose proof (sqrt_lt_R0 _ DP). lra. apply h_occ. apply had_mult. apply had_still. intros m _. rewrite (Kicc m). reflexivity. apply had_sqrt; auto. apply h_det.
Qed.
Lemma h_envelope : Had (fun m => envelope (D m) (P m) (grid (D m) g)).
Proof.
  set (rr := grid (D e) g). unfold envelope. apply had_mult. apply had_mult.
  - apply (had_ext _ _ (fun m => dfac rr (cd_qdamp (D m)))). { intros m. rewrite (Kgrid m). reflexivity. } eapply had_comp; [apply ddamp|auto].
  - set (phi := fun s => if Rlt_dec 0 s then (if Rlt_dec rr s then 1 - 3 / 2 * (rr / s) + 1 / 2 * (rr / s) * (rr / s) * (rr / s) else 0) else 1).
    apply (had_ext _ _ (fun m => phi (cp_spd (P m)))). { intros m. rewrite (Kgrid m). reflexivity. }
    destruct (Req_dec (cp_spd (P e)) 0) as [Z|NZ]. { apply had_still. intros m H. rewrite (Nspd Z m H). reflexivity. }
    assert (Q : exists y, dl phi (cp_spd (P e)) y). 2:{ destruct Q as (y & Y). eapply had_comp; eauto. }
    destruct (Rlt_dec 0 (cp_spd (P e))) as [S|S].
    + exists (dsphereEnvelope rr (cp_spd (P e))). apply (dlim_near (sphereEnvelope rr) _ _ _ (cp_spd (P e))); auto.
      2:{ apply env_deriv; auto. unfold rr; lra. } intros y Hy. apply Rabs_def2 in Hy. unfold phi, sphereEnvelope. destruct (Rlt_dec 0 y); [|lra]. assert (Y : 0 < y) by lra.
      destruct (Rlt_dec (rr / y) 1) as [A|A], (Rlt_dec rr y) as [B|B]; auto.
      * field. lra.
      * exfalso; apply B; apply (Rmult_lt_compat_r y) in A; auto; replace (rr / y * y) with rr in A by (field; lra); lra.
      * exfalso; apply A; apply (Rmult_lt_reg_r y); auto; replace (rr / y * y) with rr by (field; lra); lra.
    + exists 0. apply (dlim_near (fun _ => 1) _ _ _ (- cp_spd (P e))). lra. 2: apply dlim_const. intros y Hy. apply Rabs_def2 in Hy. unfold phi. destruct (Rlt_dec 0 y); [lra|reflexivity].
  - apply had_still. intros m _. rewrite (Kgrid m), (Kcut m). reflexivity.
Qed.
Lemma h_phase (de : cderived) : Had (fun m => cd_dscale (D m) * cp_pscale (P m) * fixed_phase (D m) (mkEnt (P m) de igni ignj) W C g).
Proof.
  apply had_mult. apply had_mult; auto. unfold fixed_phase. cbn [en_ph en_igni en_ignj]. cbv zeta. apply had_mult. apply h_envelope.
  assert (HG : Had (fun m => grid (D m) g)) by (apply had_still; intros m _; apply Kgrid).
  apply had_minus. apply had_div. apply Rmult_integral_contrapositive_currified. apply OCC. lra.
  - apply had_lsum. intros [[i j] t] I. apply had_bool. intros CC. unfold pair_share. apply had_mult. apply had_mult; apply had_mult; auto; apply h_weight. apply h_height; auto.
  - apply had_mult; auto. apply h_occ.
  - apply had_mult. apply had_mult. apply had_mult; auto. apply had_const. apply h_density. apply h_share.
Qed.
End Phase.
