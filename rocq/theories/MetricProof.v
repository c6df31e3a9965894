(** Proofs about the cell geometry. *)
From Coq Require Import List Arith Reals Lra Lia Psatz.
From Verif Require Import Base MathModel MathProof MetricModel MetricSpec.
Import ListNotations.
Local Open Scope R_scope.

Lemma rad_pos : 0 < rad.
Proof. unfold rad. assert (H := PI_RGT_0). lra. Qed.

Lemma cosd_acosd x : -1 <= x <= 1 -> m_cosd (m_acosd x) = x.
Proof.
  intros H. unfold m_cosd, m_acosd. replace (rad * (acos x / rad)) with (acos x).
  apply cos_acos; auto. field. apply Rgt_not_eq, rad_pos.
Qed.

Lemma sincosd x : m_sind x * m_sind x + m_cosd x * m_cosd x = 1.
Proof. unfold m_sind, m_cosd. pose proof (sin2_cos2 (rad * x)) as H. unfold Rsqr in H. exact H. Qed.

(** a positive Gram determinant leaves no degenerate angle *)
Lemma gram_perm1 x y z : gram x y z = gram y z x. Proof. unfold gram; ring. Qed.
Lemma gram_sq x y z : gram x y z = (1 - x * x) * (1 - y * y) - (x * y - z) * (x * y - z).
Proof. unfold gram. ring. Qed.
Lemma gram_sin s x y z : s * s + x * x = 1 -> 0 < gram x y z -> s <> 0.
Proof.
  intros E G ->. rewrite gram_sq in G. replace (1 - x * x) with 0 in G by lra.
  pose proof (Rle_0_sqr (x * y - z)) as Q. unfold Rsqr in Q. lra.
Qed.
Lemma gram_arg x y z s t : s * s + x * x = 1 -> t * t + y * y = 1 -> 0 < gram x y z ->
  -1 <= (x * y - z) / (s * t) <= 1.
Proof.
  intros ES ET G. assert (S0 := gram_sin s x y z ES G). assert (T0 : t <> 0) by (apply (gram_sin t y z x); auto; rewrite <- gram_perm1; auto).
  set (q := (x * y - z) / (s * t)). assert (Q : q * (s * t) = x * y - z) by (unfold q; field; auto).
  assert (q * q < 1).
  { rewrite gram_sq in G. replace (1 - x * x) with (s * s) in G by lra. replace (1 - y * y) with (t * t) in G by lra. rewrite <- Q in G.
    assert (0 < s * t * (s * t) * (1 - q * q)) by lra. assert (0 < s * t * (s * t)).
    { assert (s * t <> 0) by (apply Rmult_integral_contrapositive; auto). apply Rsqr_pos_lt in H0. exact H0. }
    nra. }
  nra.
Qed.

(** what is computed from an accepted cell *)
Lemma lattice_spec a0 win : lattice a0 win =
  if Rle_dec (gram (m_cosd (win 0%nat)) (m_cosd (win 1%nat)) (m_cosd (win 2%nat))) double_eps then Err ErrStructure
  else Ok (mkLat (sqrt (gram (m_cosd (win 0%nat)) (m_cosd (win 1%nat)) (m_cosd (win 2%nat))) * a0 0%nat * a0 1%nat * a0 2%nat)
    (fun i => a0 ((i + 1) mod 3)%nat * a0 ((i + 2) mod 3)%nat * m_sind (win i) / (sqrt (gram (m_cosd (win 0%nat)) (m_cosd (win 1%nat)) (m_cosd (win 2%nat))) * a0 0%nat * a0 1%nat * a0 2%nat))
    (fun i => m_acosd ((m_cosd (win ((i + 1) mod 3)%nat) * m_cosd (win ((i + 2) mod 3)%nat) - m_cosd (win i)) / (m_sind (win ((i + 1) mod 3)%nat) * m_sind (win ((i + 2) mod 3)%nat))))
    (tensor a0 win)
    (tensor (fun i => a0 ((i + 1) mod 3)%nat * a0 ((i + 2) mod 3)%nat * m_sind (win i) / (sqrt (gram (m_cosd (win 0%nat)) (m_cosd (win 1%nat)) (m_cosd (win 2%nat))) * a0 0%nat * a0 1%nat * a0 2%nat))
      (fun i => m_acosd ((m_cosd (win ((i + 1) mod 3)%nat) * m_cosd (win ((i + 2) mod 3)%nat) - m_cosd (win i)) / (m_sind (win ((i + 1) mod 3)%nat) * m_sind (win ((i + 2) mod 3)%nat)))))).
Proof. reflexivity. Qed.

Lemma eps_pos : 0 < double_eps.
Proof. unfold double_eps. lra. Qed.

Lemma cell_cosd win i j : (i < 3)%nat -> (j < 3)%nat -> i <> j -> m_cosd (win (3 - (i + j))%nat) = cell_cos win i j.
Proof.
  intros Hi Hj N. unfold m_cosd, cell_cos, rad.
  destruct i as [|[|[|i]]]; destruct j as [|[|[|j]]]; try lia; reflexivity.
Qed.

Lemma tensor_snap vec win i j : (i < 3)%nat -> (j < 3)%nat ->
  tensor vec win i j = metric vec win i j \/ (i <> j /\ Rabs (metric vec win i j) < double_eps /\ tensor vec win i j = 0).
Proof.
  intros Hi Hj. unfold tensor, metric. destruct (Nat.eqb_spec i j) as [->|N]. left; auto.
  rewrite (cell_cosd win i j Hi Hj N). destruct (Rlt_dec _ _); auto.
Qed.

Lemma tensor_exact vec win i j : (i < 3)%nat -> (j < 3)%nat ->
  (i <> j -> metric vec win i j = 0 \/ double_eps <= Rabs (metric vec win i j)) -> tensor vec win i j = metric vec win i j.
Proof.
  intros Hi Hj T. destruct (tensor_snap vec win i j Hi Hj) as [E|(N & S & E)]; auto.
  destruct (T N) as [->|H]; auto. lra.
Qed.

Lemma metric_sym a0 win i j : metric a0 win i j = metric a0 win j i.
Proof. unfold metric, cell_cos. rewrite (Nat.eqb_sym j i), (Nat.add_comm j i). destruct (i =? j)%nat eqn:E; [apply Nat.eqb_eq in E; subst|]; ring. Qed.
Lemma tensor_sym a0 win i j : tensor a0 win i j = tensor a0 win j i.
Proof.
  unfold tensor. rewrite (Nat.eqb_sym j i), (Nat.add_comm j i). destruct (i =? j)%nat eqn:E; [apply Nat.eqb_eq in E; subst; ring|].
  replace (a0 j * a0 i) with (a0 i * a0 j) by ring. auto.
Qed.

(** cosines of a cell, in the order of the angles *)
Definition ccos (win : v3) (k : nat) : R := cos (PI / 180 * win k).
Lemma det_metric a0 win : det33 (metric a0 win) =
  (a0 0%nat * a0 1%nat * a0 2%nat) * (a0 0%nat * a0 1%nat * a0 2%nat) * gram (ccos win 0) (ccos win 1) (ccos win 2).
Proof. unfold det33, metric, cell_cos, gram, ccos. cbn [Nat.eqb Nat.add]. ring. Qed.

Lemma skalpro_dot g h k : skalpro g h k = dot33 g h k.
Proof. unfold skalpro, dot33, idx3. cbn [fold_left]. ring. Qed.

Lemma rm_diag a b v s c : s * s + c * c = 1 -> v <> 0 -> (a * b * s / v) * (a * b * s / v) = (a * a * (b * b) * (1 - c * c)) / (v * v).
Proof. intros E V. replace (1 - c * c) with (s * s) by lra. field. auto. Qed.
Lemma rm_off x y v s t z : v <> 0 -> s <> 0 -> t <> 0 -> (x * s / v) * (y * t / v) * (z / (s * t)) = (x * y * z) / (v * v).
Proof. intros. field. auto. Qed.

(** symmetric matrix given by its six elements *)
Lemma inv6 a b c d e f : (* a d e / d b f / e f c *)
  let D := a * (b * c - f * f) - d * (d * c - f * e) + e * (d * f - b * e) in D <> 0 ->
  a * ((b * c - f * f) / D) + d * ((f * e - d * c) / D) + e * ((d * f - b * e) / D) = 1 /\
  a * ((f * e - d * c) / D) + d * ((c * a - e * e) / D) + e * ((e * d - f * a) / D) = 0 /\
  a * ((d * f - b * e) / D) + d * ((e * d - f * a) / D) + e * ((a * b - d * d) / D) = 0 /\
  d * ((b * c - f * f) / D) + b * ((f * e - d * c) / D) + f * ((d * f - b * e) / D) = 0 /\
  d * ((f * e - d * c) / D) + b * ((c * a - e * e) / D) + f * ((e * d - f * a) / D) = 1 /\
  d * ((d * f - b * e) / D) + b * ((e * d - f * a) / D) + f * ((a * b - d * d) / D) = 0 /\
  e * ((b * c - f * f) / D) + f * ((f * e - d * c) / D) + c * ((d * f - b * e) / D) = 0 /\
  e * ((f * e - d * c) / D) + f * ((c * a - e * e) / D) + c * ((e * d - f * a) / D) = 0 /\
  e * ((d * f - b * e) / D) + f * ((e * d - f * a) / D) + c * ((a * b - d * d) / D) = 1.
Proof.
  intros D ND.
  assert (I : forall x y z u v w, x * (u / D) + y * (v / D) + z * (w / D) = (x * u + y * v + z * w) / D) by (intros; field; auto).
  rewrite !I. repeat split;
  match goal with |- ?n / D = 1 => replace n with D by (unfold D; ring); field; auto | |- ?n / D = 0 => replace n with 0 by ring; field; auto end.
Qed.

Section Accepted.
  Variables (a0 win : v3).
  Let ca := m_cosd (win 0%nat). Let cb := m_cosd (win 1%nat). Let cg := m_cosd (win 2%nat).
  Let sa := m_sind (win 0%nat). Let sb := m_sind (win 1%nat). Let sg := m_sind (win 2%nat).
  Hypothesis G : 0 < gram ca cb cg.
  Hypothesis N0 : a0 0%nat <> 0. Hypothesis N1 : a0 1%nat <> 0. Hypothesis N2 : a0 2%nat <> 0.
  Let v := sqrt (gram ca cb cg) * a0 0%nat * a0 1%nat * a0 2%nat.

  Lemma v_sq : v * v = gram ca cb cg * (a0 0%nat * a0 1%nat * a0 2%nat) * (a0 0%nat * a0 1%nat * a0 2%nat).
  Proof. unfold v. transitivity (sqrt (gram ca cb cg) * sqrt (gram ca cb cg) * (a0 0%nat * a0 1%nat * a0 2%nat) * (a0 0%nat * a0 1%nat * a0 2%nat)). ring. rewrite sqrt_sqrt; lra. Qed.
  Lemma abc_nz : a0 0%nat * a0 1%nat * a0 2%nat <> 0.
  Proof. repeat apply Rmult_integral_contrapositive_currified; auto. Qed.
  Lemma v_nz : v <> 0.
  Proof.
    intros Z. pose proof v_sq as Q. rewrite Z in Q. pose proof abc_nz as A. apply Rsqr_pos_lt in A. unfold Rsqr in A.
    assert (0 < gram ca cb cg * ((a0 0%nat * a0 1%nat * a0 2%nat) * (a0 0%nat * a0 1%nat * a0 2%nat))) by (apply Rmult_lt_0_compat; auto). lra.
  Qed.
  Lemma v_det : v * v = det33 (metric a0 win).
  Proof. rewrite v_sq, det_metric. unfold ccos, ca, cb, cg, m_cosd, rad. ring. Qed.

  Lemma sa_nz : sa <> 0. Proof. apply (gram_sin sa ca cb cg); auto. apply sincosd. Qed.
  Lemma sb_nz : sb <> 0. Proof. apply (gram_sin sb cb cg ca). apply sincosd. rewrite <- gram_perm1; auto. Qed.
  Lemma sg_nz : sg <> 0. Proof. apply (gram_sin sg cg ca cb). apply sincosd. rewrite gram_perm1; auto. Qed.

  Let ar := fun i => a0 ((i + 1) mod 3)%nat * a0 ((i + 2) mod 3)%nat * m_sind (win i) / v.
  Let wrez := fun i => m_acosd ((m_cosd (win ((i + 1) mod 3)%nat) * m_cosd (win ((i + 2) mod 3)%nat) - m_cosd (win i)) / (m_sind (win ((i + 1) mod 3)%nat) * m_sind (win ((i + 2) mod 3)%nat))).

  Lemma cos_wrez0 : m_cosd (wrez 0) = (cb * cg - ca) / (sb * sg).
  Proof. unfold wrez. cbn. apply cosd_acosd. apply gram_arg; try apply sincosd. rewrite <- gram_perm1; auto. Qed.
  Lemma cos_wrez1 : m_cosd (wrez 1) = (cg * ca - cb) / (sg * sa).
  Proof. unfold wrez. cbn. apply cosd_acosd. apply gram_arg; try apply sincosd. rewrite gram_perm1; auto. Qed.
  Lemma cos_wrez2 : m_cosd (wrez 2) = (ca * cb - cg) / (sa * sb).
  Proof. unfold wrez. cbn. apply cosd_acosd. apply gram_arg; try apply sincosd. auto. Qed.

  (** the metric computed from the reciprocal cell constants is the reciprocal metric *)
  Lemma recip_metric i j : (i < 3)%nat -> (j < 3)%nat -> metric ar wrez i j = rmetric a0 win i j.
  Proof.
    intros Hi Hj. pose proof sa_nz as SA. pose proof sb_nz as SB. pose proof sg_nz as SG. pose proof v_nz as V.
    assert (D : det33 (metric a0 win) <> 0) by (rewrite <- v_det; apply Rmult_integral_contrapositive_currified; auto).
    assert (C0 : cos (PI / 180 * win 0%nat) = ca) by reflexivity.
    assert (C1 : cos (PI / 180 * win 1%nat) = cb) by reflexivity.
    assert (C2 : cos (PI / 180 * win 2%nat) = cg) by reflexivity.
    pose proof (sincosd (win 0%nat)) as Q0. pose proof (sincosd (win 1%nat)) as Q1. pose proof (sincosd (win 2%nat)) as Q2.
    fold sa ca in Q0. fold sb cb in Q1. fold sg cg in Q2.
    unfold rmetric. rewrite <- v_det.
    pose proof cos_wrez0 as W0. pose proof cos_wrez1 as W1. pose proof cos_wrez2 as W2. unfold m_cosd, rad in W0, W1, W2.
    assert (A0 : ar 0 = a0 1%nat * a0 2%nat * sa / v) by reflexivity.
    assert (A1 : ar 1 = a0 2%nat * a0 0%nat * sb / v) by reflexivity.
    assert (A2 : ar 2 = a0 0%nat * a0 1%nat * sg / v) by reflexivity.
    clearbody v. clear D. clearbody ar wrez.
    destruct i as [|[|[|i]]]; destruct j as [|[|[|j]]]; try lia; unfold metric, cell_cos;
      cbn [Nat.eqb Nat.add Nat.modulo Nat.divmod fst snd Nat.sub]; rewrite ?A0, ?A1, ?A2, ?W0, ?W1, ?W2, ?C0, ?C1, ?C2.
    - rewrite (rm_diag _ _ _ sa ca); auto. f_equal. ring.
    - rewrite rm_off; auto. f_equal. ring.
    - rewrite (Rmult_comm sg sa), rm_off; auto. f_equal. ring.
    - rewrite (Rmult_comm sa sb), rm_off; auto. f_equal. ring.
    - rewrite (rm_diag _ _ _ sb cb); auto. f_equal. ring.
    - rewrite rm_off; auto. f_equal. ring.
    - rewrite rm_off; auto. f_equal. ring.
    - rewrite (Rmult_comm sb sg), rm_off; auto. f_equal. ring.
    - rewrite (rm_diag _ _ _ sg cg); auto. f_equal. ring.
  Qed.

  (** cofactors over the determinant are the inverse *)
  Lemma rmetric_inverse i j : (i < 3)%nat -> (j < 3)%nat ->
    mul33 (metric a0 win) (rmetric a0 win) i j = one33 i j /\ mul33 (rmetric a0 win) (metric a0 win) i j = one33 i j.
  Proof.
    intros Hi Hj. assert (D : det33 (metric a0 win) <> 0) by (rewrite <- v_det; apply Rmult_integral_contrapositive_currified; apply v_nz).
    pose proof (metric_sym a0 win) as SY. unfold mul33, rmetric, one33.
    set (d := det33 (metric a0 win)) in *. assert (DD : d = det33 (metric a0 win)) by reflexivity. clearbody d. unfold det33 in DD.
    set (g := metric a0 win) in *. clearbody g.
    assert (S1 := SY 1%nat 0%nat). assert (S2 := SY 2%nat 0%nat). assert (S3 := SY 2%nat 1%nat). rewrite S1, S2, S3 in DD.
    pose proof (inv6 (g 0%nat 0%nat) (g 1%nat 1%nat) (g 2%nat 2%nat) (g 0%nat 1%nat) (g 0%nat 2%nat) (g 1%nat 2%nat)) as I. cbv zeta in I.
    replace (g 0%nat 0%nat * (g 1%nat 1%nat * g 2%nat 2%nat - g 1%nat 2%nat * g 1%nat 2%nat) - g 0%nat 1%nat * (g 0%nat 1%nat * g 2%nat 2%nat - g 1%nat 2%nat * g 0%nat 2%nat) +
      g 0%nat 2%nat * (g 0%nat 1%nat * g 1%nat 2%nat - g 1%nat 1%nat * g 0%nat 2%nat)) with d in I by (rewrite DD; ring).
    specialize (I D). destruct I as (I1 & I2 & I3 & I4 & I5 & I6 & I7 & I8 & I9). unfold Rdiv in *.
    destruct i as [|[|[|i]]]; destruct j as [|[|[|j]]]; try lia;
      cbn [Nat.eqb Nat.add Nat.modulo Nat.divmod fst snd Nat.sub]; rewrite ?S1, ?S2, ?S3; split;
    first [rewrite <- I1 at 1; ring | rewrite <- I2; ring | rewrite <- I3; ring | rewrite <- I4; ring | rewrite <- I6; ring | rewrite <- I7; ring | rewrite <- I8; ring
      | rewrite <- I5 at 1; ring | rewrite <- I9 at 1; ring].
  Qed.

  (** length of a vector: sum of squares *)
  Lemma metric_squares h :
    let x := h 0%nat * a0 0%nat in let y := h 1%nat * a0 1%nat in let z := h 2%nat * a0 2%nat in
    dot33 (metric a0 win) h h = (x + y * cg + z * cb) * (x + y * cg + z * cb)
      + (sg * y + z * ((ca - cb * cg) / sg)) * (sg * y + z * ((ca - cb * cg) / sg)) + z * z * (gram ca cb cg / (sg * sg)).
  Proof.
    intros x y z. pose proof sg_nz as SG. pose proof (sincosd (win 2%nat)) as Q2. fold sg cg in Q2.
    unfold dot33, metric, cell_cos. cbn [Nat.eqb Nat.add].
    change (cos (PI / 180 * win 0%nat)) with ca. change (cos (PI / 180 * win 1%nat)) with cb. change (cos (PI / 180 * win 2%nat)) with cg.
    unfold x, y, z, gram. field_simplify_eq; auto.
    assert (Q : sg ^ 2 = 1 - cg * cg) by (simpl; lra). replace (sg ^ 4) with (sg ^ 2 * sg ^ 2) by ring. rewrite Q. ring.
  Qed.

  Lemma metric_pos h : 0 <= dot33 (metric a0 win) h h /\
    (dot33 (metric a0 win) h h = 0 -> h 0%nat = 0 /\ h 1%nat = 0 /\ h 2%nat = 0).
  Proof.
    rewrite metric_squares. pose proof sg_nz as SG. set (x := h 0%nat * a0 0%nat). set (y := h 1%nat * a0 1%nat). set (z := h 2%nat * a0 2%nat).
    set (p := x + y * cg + z * cb). set (q := sg * y + z * ((ca - cb * cg) / sg)).
    assert (0 < gram ca cb cg / (sg * sg)). { apply Rdiv_lt_0_compat; auto. apply Rsqr_pos_lt in SG. exact SG. }
    set (w := gram ca cb cg / (sg * sg)) in *. clearbody w.
    pose proof (Rle_0_sqr p) as P. pose proof (Rle_0_sqr q) as Q. pose proof (Rle_0_sqr z) as Z. unfold Rsqr in *.
    assert (0 <= z * z * w) by (apply Rmult_le_pos; lra). split. lra. intros E.
    assert (z * z * w = 0) by lra. assert (ZZ : z * z = 0) by (apply Rmult_integral in H1; destruct H1; lra).
    assert (Z0 : z = 0) by (apply Rmult_integral in ZZ; tauto).
    assert (Q0 : q = 0) by (apply Rsqr_0_uniq; unfold Rsqr; lra). assert (P0 : p = 0) by (apply Rsqr_0_uniq; unfold Rsqr; lra).
    unfold q in Q0. rewrite Z0 in Q0. assert (Y0 : y = 0). { assert (sg * y = 0) by lra. apply Rmult_integral in H2. tauto. }
    unfold p in P0. rewrite Y0, Z0 in P0. assert (X0 : x = 0) by lra.
    unfold x, y, z in *. apply Rmult_integral in X0, Y0, Z0. tauto.
  Qed.
End Accepted.

(** * the angles of an accepted cell *)
Lemma gram_halves x y z : gram (cos x) (cos y) (cos z) =
  4 * sin ((x + y + z) / 2) * sin ((y + z - x) / 2) * sin ((x + z - y) / 2) * sin ((x + y - z) / 2).
Proof.
  assert (F : gram (cos x) (cos y) (cos z) = (cos z - cos (x + y)) * (cos (x - y) - cos z)).
  { rewrite cos_plus, cos_minus, gram_sq. pose proof (sin2_cos2 x) as Q1. pose proof (sin2_cos2 y) as Q2. unfold Rsqr in *.
    replace (1 - cos x * cos x) with (sin x * sin x) by lra. replace (1 - cos y * cos y) with (sin y * sin y) by lra. ring. }
  rewrite F, (form2 z (x + y)), (form2 (x - y) z).
  replace ((z - (x + y)) / 2) with (- ((x + y - z) / 2)) by lra. replace ((z + (x + y)) / 2) with ((x + y + z) / 2) by lra.
  replace ((x - y - z) / 2) with (- ((y + z - x) / 2)) by lra. replace ((x - y + z) / 2) with ((x + z - y) / 2) by lra.
  rewrite !sin_neg. ring.
Qed.

(** positive exactly when the three angles close *)
Lemma gram_closes x y z : 0 < x < PI -> 0 < y < PI -> 0 < z < PI ->
  (0 < gram (cos x) (cos y) (cos z) <-> x < y + z /\ y < x + z /\ z < x + y /\ x + y + z < 2 * PI).
Proof.
  intros X Y Z. rewrite gram_halves.
  set (s := (x + y + z) / 2). set (p := (y + z - x) / 2). set (q := (x + z - y) / 2). set (r := (x + y - z) / 2).
  assert (PB : - PI < p < PI) by (unfold p; lra). assert (QB : - PI < q < PI) by (unfold q; lra). assert (RB : - PI < r < PI) by (unfold r; lra).
  assert (SB : 0 < s < 3 * PI / 2) by (unfold s; lra).
  assert (SG : forall u, - PI < u < PI -> (0 < sin u <-> 0 < u)).
  { intros u U. split; intros H.
    - destruct (Rlt_dec 0 u); auto. exfalso. destruct (Req_dec u 0) as [->|]. rewrite sin_0 in H; lra.
      assert (sin u < 0) by (apply sin_lt_0_var; lra). lra.
    - apply sin_gt_0; lra. }
  assert (SG2 : forall u, - PI < u < PI -> (sin u < 0 <-> u < 0)).
  { intros u U. split; intros H.
    - destruct (Rlt_dec u 0); auto. exfalso. destruct (Req_dec u 0) as [->|]. rewrite sin_0 in H; lra.
      assert (0 < sin u) by (apply sin_gt_0; lra). lra.
    - apply sin_lt_0_var; lra. }
  assert (SS : (0 < sin s <-> s < PI)).
  { split; intros H. destruct (Rlt_dec s PI); auto. assert (sin s <= 0) by (apply sin_le_0; lra). lra. apply sin_gt_0; lra. }
  assert (SS2 : (sin s < 0 -> PI < s)).
  { intros H. destruct (Rlt_dec PI s); auto. assert (0 <= sin s) by (apply sin_ge_0; lra). lra. }
  split.
  - intros H.
    (* at most one of the four factors can be non-positive *)
    assert (PQ : 0 < p + q) by (unfold p, q; lra). assert (PR : 0 < p + r) by (unfold p, r; lra). assert (QR : 0 < q + r) by (unfold q, r; lra).
    assert (SP : s - p < PI) by (unfold s, p; lra). assert (SQ : s - q < PI) by (unfold s, q; lra). assert (SR : s - r < PI) by (unfold s, r; lra).
    assert (PM : p < PI - 0) by lra.
    assert (Hp : 0 < p).
    { destruct (Rlt_dec 0 p); auto. exfalso. assert (0 < sin q) by (apply SG; lra). assert (0 < sin r) by (apply SG; lra).
      assert (s < PI) by lra. assert (0 < sin s) by (apply SS; auto). assert (sin p <= 0). { destruct (Req_dec p 0) as [->|]. rewrite sin_0; lra. apply Rlt_le, SG2; lra. }
      assert (0 < 4 * sin s * (sin q * sin r)) by (repeat apply Rmult_lt_0_compat; lra). nra. }
    assert (Hq : 0 < q).
    { destruct (Rlt_dec 0 q); auto. exfalso. assert (0 < sin p) by (apply SG; lra). assert (0 < sin r) by (apply SG; lra).
      assert (s < PI) by lra. assert (0 < sin s) by (apply SS; auto). assert (sin q <= 0). { destruct (Req_dec q 0) as [->|]. rewrite sin_0; lra. apply Rlt_le, SG2; lra. }
      assert (0 < 4 * sin s * (sin p * sin r)) by (repeat apply Rmult_lt_0_compat; lra). nra. }
    assert (Hr : 0 < r).
    { destruct (Rlt_dec 0 r); auto. exfalso. assert (0 < sin p) by (apply SG; lra). assert (0 < sin q) by (apply SG; lra).
      assert (s < PI) by lra. assert (0 < sin s) by (apply SS; auto). assert (sin r <= 0). { destruct (Req_dec r 0) as [->|]. rewrite sin_0; lra. apply Rlt_le, SG2; lra. }
      assert (0 < 4 * sin s * (sin p * sin q)) by (repeat apply Rmult_lt_0_compat; lra). nra. }
    assert (Hs : s < PI).
    { apply SS. assert (0 < sin p) by (apply SG; lra). assert (0 < sin q) by (apply SG; lra). assert (0 < sin r) by (apply SG; lra).
      assert (0 < sin p * sin q * sin r) by (repeat apply Rmult_lt_0_compat; auto). nra. }
    unfold p, q, r, s in *. lra.
  - intros (A & B & C & D). assert (0 < sin p) by (apply SG; unfold p in *; lra). assert (0 < sin q) by (apply SG; unfold q in *; lra).
    assert (0 < sin r) by (apply SG; unfold r in *; lra). assert (0 < sin s) by (apply SS; unfold s in *; lra). repeat apply Rmult_lt_0_compat; auto; lra.
Qed.

(** * statements about lattice() *)
Lemma lattice_accepts a0 win : (exists l, lattice a0 win = Ok l) <->
  double_eps < gram (cos (PI / 180 * win 0%nat)) (cos (PI / 180 * win 1%nat)) (cos (PI / 180 * win 2%nat)).
Proof.
  rewrite lattice_spec. change (PI / 180) with rad. fold (m_cosd (win 0%nat)) (m_cosd (win 1%nat)) (m_cosd (win 2%nat)).
  destruct (Rle_dec _ _); split; intros H; try lra. destruct H; discriminate. eexists; reflexivity.
Qed.

Lemma lattice_rejects a0 win e : lattice a0 win = Err e -> e = ErrStructure.
Proof. rewrite lattice_spec. destruct (Rle_dec _ _); intros H; inversion H; auto. Qed.

Lemma lattice_total a0 win : lattice a0 win <> UB /\ lattice a0 win <> NoFuel.
Proof. rewrite lattice_spec. destruct (Rle_dec _ _); split; discriminate. Qed.

Lemma rad_angle x : 0 < x < 180 -> 0 < PI / 180 * x < PI.
Proof. intros H. assert (P := PI_RGT_0). nra. Qed.

Lemma lattice_angles a0 win l : (forall k, (k < 3)%nat -> 0 < win k < 180) -> lattice a0 win = Ok l ->
  win 0%nat < win 1%nat + win 2%nat /\ win 1%nat < win 0%nat + win 2%nat /\ win 2%nat < win 0%nat + win 1%nat /\
  win 0%nat + win 1%nat + win 2%nat < 360.
Proof.
  intros W H. assert (A : exists l, lattice a0 win = Ok l) by eauto. apply lattice_accepts in A. pose proof eps_pos as E.
  assert (P := PI_RGT_0).
  destruct (gram_closes (PI / 180 * win 0%nat) (PI / 180 * win 1%nat) (PI / 180 * win 2%nat)) as [G _]; try (apply rad_angle, W; lia).
  destruct G as (G1 & G2 & G3 & G4). lra.
  assert (forall u v, PI / 180 * u < PI / 180 * v -> u < v) as M by (intros; nra). split; [|split; [|split]]; apply M; lra.
Qed.

Lemma lattice_gten a0 win l : lattice a0 win = Ok l -> l_gten l = tensor a0 win.
Proof. rewrite lattice_spec. destruct (Rle_dec _ _); intros H; inversion H; auto. Qed.

Lemma lattice_gram a0 win l : lattice a0 win = Ok l -> 0 < gram (m_cosd (win 0%nat)) (m_cosd (win 1%nat)) (m_cosd (win 2%nat)).
Proof. rewrite lattice_spec. destruct (Rle_dec _ _); intros H; inversion H. pose proof eps_pos. lra. Qed.

Lemma lattice_sym a0 win l : lattice a0 win = Ok l -> forall i j, l_gten l i j = l_gten l j i /\ l_rten l i j = l_rten l j i.
Proof. rewrite lattice_spec. destruct (Rle_dec _ _); intros H; inversion H; subst. intros i j; split; apply tensor_sym. Qed.

Lemma lattice_near a0 win l : lattice a0 win = Ok l -> forall i j, (i < 3)%nat -> (j < 3)%nat ->
  Rabs (l_gten l i j - metric a0 win i j) < double_eps.
Proof.
  intros H i j Hi Hj. rewrite (lattice_gten _ _ _ H). destruct (tensor_snap a0 win i j Hi Hj) as [->|(_ & S & ->)].
  rewrite Rminus_eq_0, Rabs_R0. apply eps_pos. rewrite Rminus_0_l, Rabs_Ropp. auto.
Qed.

Lemma dot33_ext s t h k : (forall i j, (i < 3)%nat -> (j < 3)%nat -> s i j = t i j) -> dot33 s h k = dot33 t h k.
Proof. intros E. unfold dot33. rewrite !E by lia. auto. Qed.
Lemma mul33_ext s t s' t' i j : (forall i j, (i < 3)%nat -> (j < 3)%nat -> s i j = s' i j) -> (forall i j, (i < 3)%nat -> (j < 3)%nat -> t i j = t' i j) ->
  (i < 3)%nat -> (j < 3)%nat -> mul33 s t i j = mul33 s' t' i j.
Proof. intros E F Hi Hj. unfold mul33. rewrite !E, !F by lia. auto. Qed.

Lemma lattice_metric a0 win l : (forall k, (k < 3)%nat -> a0 k <> 0) -> lattice a0 win = Ok l -> no_tiny (metric a0 win) ->
  (forall i j, (i < 3)%nat -> (j < 3)%nat -> l_gten l i j = metric a0 win i j) /\
  l_v l * l_v l = det33 (l_gten l) /\
  (forall h k, skalpro (l_gten l) h k = dot33 (metric a0 win) h k) /\
  (forall h, 0 <= skalpro (l_gten l) h h /\ (skalpro (l_gten l) h h = 0 -> h 0%nat = 0 /\ h 1%nat = 0 /\ h 2%nat = 0)).
Proof.
  intros N H T. pose proof (lattice_gram _ _ _ H) as G.
  assert (E : forall i j, (i < 3)%nat -> (j < 3)%nat -> l_gten l i j = metric a0 win i j).
  { intros i j Hi Hj. rewrite (lattice_gten _ _ _ H). apply tensor_exact; auto. }
  assert (D : forall h k, skalpro (l_gten l) h k = dot33 (metric a0 win) h k).
  { intros h k. rewrite skalpro_dot. apply dot33_ext. auto. }
  split; auto. split; [|split; auto].
  - transitivity (det33 (metric a0 win)); [|unfold det33; rewrite !E by lia; auto].
    rewrite <- v_det by auto. rewrite lattice_spec in H. destruct (Rle_dec _ _); inversion H; subst. reflexivity.
  - intros h. rewrite D. apply metric_pos; auto.
Qed.

Lemma lattice_inverse a0 win l : (forall k, (k < 3)%nat -> a0 k <> 0) -> lattice a0 win = Ok l ->
  no_tiny (metric a0 win) -> no_tiny (rmetric a0 win) -> forall i j, (i < 3)%nat -> (j < 3)%nat ->
  mul33 (l_gten l) (l_rten l) i j = one33 i j /\ mul33 (l_rten l) (l_gten l) i j = one33 i j.
Proof.
  intros N H T T2 i j Hi Hj. pose proof (lattice_gram _ _ _ H) as G.
  destruct (lattice_metric _ _ _ N H T) as (E & _).
  assert (F : forall i j, (i < 3)%nat -> (j < 3)%nat -> l_rten l i j = rmetric a0 win i j).
  { intros i' j' Hi' Hj'. rewrite lattice_spec in H. destruct (Rle_dec _ _); inversion H; subst. cbn [l_rten].
    rewrite tensor_exact; rewrite ?recip_metric; auto. }
  rewrite (mul33_ext (l_gten l) (l_rten l) (metric a0 win) (rmetric a0 win)); auto.
  rewrite (mul33_ext (l_rten l) (l_gten l) (rmetric a0 win) (metric a0 win)); auto. apply rmetric_inverse; auto.
Qed.

Definition snap (i j : nat) (x : R) : R := if (i =? j)%nat then x else if Rlt_dec (Rabs x) double_eps then 0 else x.
Lemma tensor_is_snap vec win i j : (i < 3)%nat -> (j < 3)%nat -> tensor vec win i j = snap i j (metric vec win i j).
Proof.
  intros Hi Hj. unfold tensor, metric, snap. destruct (Nat.eqb_spec i j) as [->|N]; auto. rewrite (cell_cosd win i j Hi Hj N). auto.
Qed.
Lemma lattice_rten a0 win l : (forall k, (k < 3)%nat -> a0 k <> 0) -> lattice a0 win = Ok l ->
  forall i j, (i < 3)%nat -> (j < 3)%nat -> l_rten l i j = snap i j (rmetric a0 win i j).
Proof.
  intros N H i j Hi Hj. pose proof (lattice_gram _ _ _ H) as G. rewrite lattice_spec in H. destruct (Rle_dec _ _); inversion H; subst. cbn [l_rten].
  rewrite tensor_is_snap, recip_metric; auto.
Qed.

(** * cases *)
Lemma cosd90 : m_cosd 90 = 0.
Proof. unfold m_cosd, rad. replace (PI / 180 * 90) with (PI / 2) by field. apply cos_PI2. Qed.
Lemma cosd60 : m_cosd 60 = 1 / 2.
Proof. unfold m_cosd, rad. replace (PI / 180 * 60) with (PI / 3) by field. apply cos_PI3. Qed.
Lemma sind90 : m_sind 90 = 1.
Proof. unfold m_sind, rad. replace (PI / 180 * 90) with (PI / 2) by field. apply sin_PI2. Qed.

(** the cell a, b, c with angles 90, 90, 60 *)
Definition cell60 (k : nat) : R := match k with 2%nat => 60 | _ => 90 end.
Lemma gram60 : gram (m_cosd (cell60 0)) (m_cosd (cell60 1)) (m_cosd (cell60 2)) = 3 / 4.
Proof. unfold cell60, gram. rewrite cosd90, cosd60. lra. Qed.
Lemma metric60 a i j : (i < 3)%nat -> (j < 3)%nat -> metric (fun _ => a) cell60 i j =
  (if (i =? j)%nat then a * a else if (i + j =? 1)%nat then a * a / 2 else 0).
Proof.
  intros Hi Hj. assert (C9 : cos (PI / 180 * 90) = 0) by apply cosd90. assert (C6 : cos (PI / 180 * 60) = 1 / 2) by apply cosd60.
  destruct i as [|[|[|i]]]; destruct j as [|[|[|j]]]; try lia; unfold metric, cell_cos; cbn [Nat.eqb Nat.add cell60]; rewrite ?C9, ?C6; lra.
Qed.
Lemma rmetric60 a i j : a <> 0 -> (i < 3)%nat -> (j < 3)%nat -> rmetric (fun _ => a) cell60 i j =
  (if (i =? j)%nat then if (i =? 2)%nat then 1 / (a * a) else 4 / (3 * (a * a)) else if (i + j =? 1)%nat then - 2 / (3 * (a * a)) else 0).
Proof.
  intros A Hi Hj. unfold rmetric. assert (D : det33 (metric (fun _ => a) cell60) = 3 / 4 * (a * a * (a * a) * (a * a))).
  { unfold det33. rewrite !metric60 by lia. cbn [Nat.eqb Nat.add]. field. }
  rewrite D. destruct i as [|[|[|i]]]; destruct j as [|[|[|j]]]; try lia; cbn [Nat.eqb Nat.add Nat.modulo Nat.divmod fst snd Nat.sub];
    rewrite !metric60 by lia; cbn [Nat.eqb Nat.add]; field; auto.
Qed.

(** a cell of 10000: the reciprocal metric loses its off-diagonal elements *)
Lemma big_cell : exists l, lattice (fun _ => 10000) cell60 = Ok l /\ mul33 (l_gten l) (l_rten l) 0 0 = 4 / 3.
Proof.
  destruct (proj2 (lattice_accepts (fun _ => 10000) cell60)) as [l H].
  { change (PI / 180) with rad. fold (m_cosd (cell60 0)) (m_cosd (cell60 1)) (m_cosd (cell60 2)). rewrite gram60. unfold double_eps. lra. }
  exists l. split; auto. pose proof (lattice_gram _ _ _ H) as G.
  assert (N : 10000 <> 0) by lra.
  assert (T : forall i j, (i < 3)%nat -> (j < 3)%nat -> l_rten l i j = snap i j (rmetric (fun _ => 10000) cell60 i j)) by (apply lattice_rten; auto).
  assert (R00 : l_rten l 0%nat 0%nat = rmetric (fun _ => 10000) cell60 0 0) by (rewrite T by lia; reflexivity).
  assert (R10 : l_rten l 1%nat 0%nat = 0).
  { rewrite T, rmetric60 by (auto; lia). unfold snap. cbn. destruct (Rlt_dec _ _) as [|NL]; auto. exfalso. apply NL. unfold double_eps. rewrite Rabs_left; lra. }
  assert (R20 : l_rten l 2%nat 0%nat = 0).
  { rewrite T, rmetric60 by (auto; lia). unfold snap. cbn. destruct (Rlt_dec _ _); auto. }
  unfold mul33. rewrite R00, R10, R20, rmetric60 by (auto; lia). rewrite (lattice_gten _ _ _ H). unfold tensor. cbn [Nat.eqb Nat.add]. field.
Qed.

Lemma lattice_decides a0 win :
  ((exists l, lattice a0 win = Ok l) <->
   double_eps < gram (cos (PI / 180 * win 0%nat)) (cos (PI / 180 * win 1%nat)) (cos (PI / 180 * win 2%nat))) /\
  ((forall l, lattice a0 win <> Ok l) -> lattice a0 win = Err ErrStructure).
Proof.
  split. apply lattice_accepts. intros N. rewrite lattice_spec in *. destruct (Rle_dec _ _); auto. destruct (N _ eq_refl).
Qed.

Lemma zero_edge : exists a0 win l, a0 0%nat = 0 /\ lattice a0 win = Ok l /\ l_v l = 0.
Proof.
  destruct (proj2 (lattice_accepts (fun k => match k with O => 0 | _ => 4 end) cell60)) as [l H].
  { change (double_eps < gram (m_cosd (cell60 0)) (m_cosd (cell60 1)) (m_cosd (cell60 2))). rewrite gram60. unfold double_eps. lra. }
  eexists _, _, l. split; [|split; [exact H|]]. reflexivity. rewrite lattice_spec in H. destruct (Rle_dec _ _); inversion H; subst. cbn [l_v]. ring.
Qed.
