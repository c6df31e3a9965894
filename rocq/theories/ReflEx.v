(** Concrete reflections. *)
From Coq Require Import List Arith ZArith Reals Lra Lia.
From Verif Require Import Base MathModel MathProof MetricModel MetricSpec MetricProof SphereModel SphereSpec SphereProof PdfModel ReflModel ReflSpec ReflProof ReflFinal.
Local Open Scope R_scope.

Lemma cubic_r x h k o : 0 < x -> lp_r (lp_reciprocal (lp_make x x x 90 90 90)) h k o = sqrt (IZR (h * h + k * k + o * o)) / x.
Proof.
  intros X. assert (C : m_cosd 90 = 0) by (unfold m_cosd, rad; replace (PI / 180 * 90) with (PI / 2) by lra; apply cos_PI2).
  rewrite cubic_recip by auto. unfold lp_r, lp_make. cbn [lp_a lp_b lp_c lp_ca lp_cb lp_cg]. rewrite C.
  assert (N : 0 <= IZR (h * h + k * k + o * o)) by (apply IZR_le; nia).
  apply sqrt_of. apply Rmult_le_pos; [apply R_sqrt.sqrt_pos|apply Rlt_le, Rinv_0_lt_compat; auto].
  transitivity (sqrt (IZR (h * h + k * k + o * o)) * sqrt (IZR (h * h + k * k + o * o)) / (x * x)); [|field; lra].
  rewrite sqrt_sqrt by auto. rewrite !plus_IZR, !mult_IZR. field. lra.
Qed.

Lemma cubic_spacing x h k o d : 0 < x -> plane_spacing x x x 90 90 90 h k o d -> d * d * IZR (h * h + k * k + o * o) = x * x.
Proof.
  intros X S. pose proof (spacing_nz _ _ _ _ _ _ _ _ _ _ S) as N. pose proof (cubic_proper x X) as P. destruct (spacing_of _ _ _ _ _ _ P _ _ _ N) as [L Q].
  rewrite (spacing_unique _ _ _ _ _ _ _ _ _ _ _ S Q). rewrite cubic_r in * by auto. assert (M : 0 <= IZR (h * h + k * k + o * o)) by (apply IZR_le; nia).
  set (n := IZR (h * h + k * k + o * o)) in *. assert (SN : sqrt n <> 0). { intros Z. rewrite Z in L. unfold Rdiv in L. rewrite Rmult_0_l in L. lra. }
  rewrite <- (sqrt_sqrt n M) at 3. field. split; lra.
Qed.

(** no plane of the cubic crystal with the edge 4 has the spacing 5 *)
Lemma case_gap : proper_cell 4 4 4 90 90 90 /\ forall h k o, ~ plane_spacing 4 4 4 90 90 90 h k o 5.
Proof.
  split. apply cubic_proper; lra. intros h k o S. apply cubic_spacing in S; [|lra]. 
  assert (E : IZR (25 * (h * h + k * k + o * o)) = IZR 16) by (rewrite mult_IZR; lra). apply eq_IZR in E. lia.
Qed.

(** planes at distances 4 and 2 *)
Lemma case_planes x n : 0 < x -> (0 < n)%Z -> plane_spacing x x x 90 90 90 0 0 n (x / IZR n).
Proof.
  intros X N. assert (NR : IZR 0 < IZR n) by (apply IZR_lt; auto). destruct (spacing_of _ _ _ _ _ _ (cubic_proper x X) 0 0 n) as [L S]. intros E; injection E; lia.
  replace (x / IZR n) with (1 / lp_r (lp_reciprocal (lp_make x x x 90 90 90)) 0 0 n); auto. rewrite cubic_r by auto.
  replace (sqrt (IZR (0 * 0 + 0 * 0 + n * n))) with (IZR n). field. lra. symmetry. apply sqrt_of. lra. rewrite Z.mul_0_l, !Z.add_0_l, mult_IZR. reflexivity.
Qed.

(** the spacing asked for is at most 2, the reflection (0 0 1) with the spacing 4 comes *)
Lemma spacing_beyond : exists a b c alpha beta gamma dmax dmin fuel L, proper_cell a b c alpha beta gamma /\ 0 < dmin < dmax /\
  dspacing_points fuel dmax dmin (lp_make a b c alpha beta gamma) = Ok L /\
  exists h k o d, In (h, k, o) L /\ plane_spacing a b c alpha beta gamma h k o d /\ dmax < d.
Proof.
  assert (P : proper_cell 4 4 4 90 90 90) by (apply cubic_proper; lra).
  assert (S2 : plane_spacing 4 4 4 90 90 90 0 0 2 2). { pose proof (case_planes 4 2 ltac:(lra) ltac:(lia)) as Z. replace (4 / IZR 2) with 2 in Z by lra. exact Z. }
  assert (S1 : plane_spacing 4 4 4 90 90 90 0 0 1 4). { pose proof (case_planes 4 1 ltac:(lra) ltac:(lia)) as Z. replace (4 / IZR 1) with 4 in Z by lra. exact Z. }
  destruct (limit_line _ _ _ _ _ _ P 2 1 2 ltac:(lia) S2 ltac:(lra) 1) as (f & L & H1 & H2). { right. exists 4. split; auto. lra. }
  exists 4, 4, 4, 90, 90, 90, 2, 1, f, L. split; auto. split. lra. split. apply H1; auto. exists 0%Z, 0%Z, 1%Z, 4. split; auto. split; auto. lra.
Qed.

Lemma case_skew : proper_cell 4 4 4 90 90 60 /\ exists d, plane_spacing 4 4 4 90 90 60 1 (-1) 2 d.
Proof.
  assert (P : proper_cell 4 4 4 90 90 60) by (apply cell60_proper; lra). split; auto.
  destruct (spacing_of _ _ _ _ _ _ P 1 (-1) 2) as [_ S]. discriminate. eexists; exact S.
Qed.
Lemma case_line : proper_cell 4 4 4 90 90 90 /\ plane_spacing 4 4 4 90 90 90 0 0 2 (4 / IZR 2) /\ plane_spacing 4 4 4 90 90 90 0 0 1 (4 / IZR 1).
Proof. split. apply cubic_proper; lra. split; apply case_planes; lra || lia. Qed.
