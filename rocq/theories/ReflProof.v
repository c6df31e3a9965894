(** Proofs about the reflections. *)
From Coq Require Import List Arith ZArith Reals Lra Lia Nsatz.
From Verif Require Import Base MathModel MathProof MetricModel MetricSpec MetricProof SphereModel SphereSpec SphereProof PdfModel ReflModel ReflSpec.
Local Open Scope R_scope.

Lemma sind_acosd x : -1 <= x <= 1 -> m_sind (m_acosd x) = sqrt (1 - x * x).
Proof.
  intros H. unfold m_sind, m_acosd. replace (rad * (acos x / rad)) with (acos x).
  rewrite sin_acos by auto. reflexivity. field. apply Rgt_not_eq, rad_pos.
Qed.
Lemma acosd_range x : -1 < x < 1 -> 0 < m_acosd x < 180.
Proof.
  intros H. destruct (acos_bound_lt x H) as [A B]. pose proof PI_RGT_0 as P. unfold m_acosd, rad. split.
  - apply Rdiv_lt_0_compat; lra.
  - apply Rmult_lt_reg_r with (PI / 180). lra. replace (acos x / (PI / 180) * (PI / 180)) with (acos x) by (field; lra). lra.
Qed.
Lemma sqrt_of x y : 0 <= y -> x = y * y -> sqrt x = y.
Proof. intros H ->. apply sqrt_square; auto. Qed.

(** the cell of the reciprocal lattice, from the cosines and sines of a cell *)
Lemma recip_sin s t x y z V : s <> 0 -> t <> 0 -> s * s + x * x = 1 -> t * t + y * y = 1 -> V * V = gram z x y ->
  1 - (x * y - z) / (s * t) * ((x * y - z) / (s * t)) = V / (s * t) * (V / (s * t)).
Proof.
  intros S T E F G. apply (Rmult_eq_reg_r (s * t * (s * t))); [|repeat apply Rmult_integral_contrapositive_currified; auto].
  transitivity (s * s * (t * t) - (x * y - z) * (x * y - z)). field; auto. transitivity (V * V); [|field; auto].
  rewrite G. unfold gram. replace (s * s) with (1 - x * x) by lra. replace (t * t) with (1 - y * y) by lra. ring.
Qed.

Section Recip.
Variables a b c alpha beta gamma : R.
Hypothesis cell : proper_cell a b c alpha beta gamma.
Let l := lp_make a b c alpha beta gamma.
Let ca := m_cosd alpha. Let cb := m_cosd beta. Let cg := m_cosd gamma.
Let sa := m_sind alpha. Let sb := m_sind beta. Let sg := m_sind gamma.
Let V := sqrt (1 + 2 * ca * cb * cg - ca * ca - cb * cb - cg * cg).
Let car := (cb * cg - ca) / (sb * sg).
Let cbr := (ca * cg - cb) / (sa * sg).
Let cgr := (ca * cb - cg) / (sa * sb).

Lemma signs : 0 < a /\ 0 < b /\ 0 < c /\ 0 < sa /\ 0 < sb /\ 0 < sg /\ 0 < V /\ V * V = gram ca cb cg.
Proof. exact (cell_signs a b c alpha beta gamma cell). Qed.

Lemma gram_pos : 0 < gram ca cb cg.
Proof. destruct cell as (_ & _ & _ & _ & _ & _ & G). exact G. Qed.

Lemma sins : sa * sa + ca * ca = 1 /\ sb * sb + cb * cb = 1 /\ sg * sg + cg * cg = 1.
Proof. repeat split; apply sincosd. Qed.

Lemma sar_eq : 1 - car * car = V / (sb * sg) * (V / (sb * sg)).
Proof. destruct signs as (A & B & C & SA & SB & SG & VP & VV). destruct sins as (E1 & E2 & E3). apply recip_sin; try lra. Qed.
Lemma sbr_eq : 1 - cbr * cbr = V / (sa * sg) * (V / (sa * sg)).
Proof. destruct signs as (A & B & C & SA & SB & SG & VP & VV). destruct sins as (E1 & E2 & E3). apply recip_sin; try lra. rewrite VV. unfold gram. ring. Qed.
Lemma sgr_eq : 1 - cgr * cgr = V / (sa * sb) * (V / (sa * sb)).
Proof. destruct signs as (A & B & C & SA & SB & SG & VP & VV). destruct sins as (E1 & E2 & E3). apply recip_sin; try lra. rewrite VV. unfold gram. ring. Qed.

Lemma pos2 x y : 0 < x -> 0 < y -> 0 < V / (x * y).
Proof. destruct signs as (_ & _ & _ & _ & _ & _ & VP & _). intros. apply Rdiv_lt_0_compat; auto. apply Rmult_lt_0_compat; auto. Qed.

Lemma in1 x y : 0 < y -> 1 - x * x = y * y -> -1 < x < 1.
Proof. intros H E. assert (0 < y * y) by (apply Rmult_lt_0_compat; auto). clear - H0 E. split; nra. Qed.

Lemma cos_in : -1 < car < 1 /\ -1 < cbr < 1 /\ -1 < cgr < 1.
Proof.
  destruct signs as (A & B & C & SA & SB & SG & VP & VV).
  split; [|split]; eapply in1; try (apply sar_eq || apply sbr_eq || apply sgr_eq); apply pos2; auto.
Qed.

Lemma sin_rec : sqrt (1 - car * car) = V / (sb * sg) /\ sqrt (1 - cbr * cbr) = V / (sa * sg) /\ sqrt (1 - cgr * cgr) = V / (sa * sb).
Proof.
  destruct signs as (A & B & C & SA & SB & SG & VP & VV).
  split; [|split]; apply sqrt_of; try (apply sar_eq || apply sbr_eq || apply sgr_eq); apply Rlt_le, pos2; auto.
Qed.

(** volume of the reciprocal cell with unit edges *)
Lemma gram_rec : gram car cbr cgr = V * V / (sa * sb * sg) * (V * V / (sa * sb * sg)).
Proof.
  destruct signs as (A & B & C & SA & SB & SG & VP & VV). destruct sins as (E1 & E2 & E3).
  assert (N : sa * sb * sg <> 0) by (repeat apply Rmult_integral_contrapositive_currified; lra).
  apply (Rmult_eq_reg_r (sa * sb * sg * (sa * sb * sg))); [|apply Rmult_integral_contrapositive_currified; auto].
  transitivity (V * V * (V * V)); [|field; repeat split; lra]. rewrite VV.
  transitivity (sa * sa * (sb * sb) * (sg * sg) - (cb * cg - ca) * (cb * cg - ca) * (sa * sa) - (ca * cg - cb) * (ca * cg - cb) * (sb * sb)
    - (ca * cb - cg) * (ca * cb - cg) * (sg * sg) + 2 * (cb * cg - ca) * (ca * cg - cb) * (ca * cb - cg)).
  - unfold gram, car, cbr, cgr. field. repeat split; lra.
  - replace (sa * sa) with (1 - ca * ca) by lra. replace (sb * sb) with (1 - cb * cb) by lra. replace (sg * sg) with (1 - cg * cg) by lra. unfold gram. ring.
Qed.

Lemma vol_rec : sqrt (1 + 2 * car * cbr * cgr - car * car - cbr * cbr - cgr * cgr) = V * V / (sa * sb * sg).
Proof.
  destruct signs as (A & B & C & SA & SB & SG & VP & VV). apply sqrt_of.
  - apply Rlt_le, Rdiv_lt_0_compat; repeat apply Rmult_lt_0_compat; auto.
  - rewrite <- gram_rec. unfold gram. ring.
Qed.

(** the cosines of the reciprocal of the reciprocal cell *)
Lemma back s x y z t u : s <> 0 -> t <> 0 -> u <> 0 -> V <> 0 -> s * s + x * x = 1 -> V * V = gram x y z ->
  ((x * z - y) / (s * u) * ((x * y - z) / (s * t)) - (y * z - x) / (t * u)) / (V / (s * u) * (V / (s * t))) = x.
Proof.
  intros S T U W E G. apply (Rmult_eq_reg_r (V * V)); [|apply Rmult_integral_contrapositive_currified; auto].
  transitivity ((x * z - y) * (x * y - z) - (y * z - x) * (s * s)). field; auto.
  rewrite G. replace (s * s) with (1 - x * x) by lra. unfold gram. ring.
Qed.

Let ar := sa / (a * V). Let br := sb / (b * V). Let cr := sg / (c * V).

Lemma recip_proper : proper_cell ar br cr (m_acosd car) (m_acosd cbr) (m_acosd cgr).
Proof.
  destruct signs as (A & B & C & SA & SB & SG & VP & VV). destruct cos_in as (Ca & Cb & Cg).
  assert (P : forall x y, 0 < x -> 0 < y -> 0 < x / (y * V)) by (intros; apply Rdiv_lt_0_compat; auto; apply Rmult_lt_0_compat; auto).
  unfold proper_cell. split; [apply P; auto|]. split; [apply P; auto|]. split; [apply P; auto|].
  split; [apply acosd_range; auto|]. split; [apply acosd_range; auto|]. split; [apply acosd_range; auto|].
  change (0 < gram (m_cosd (m_acosd car)) (m_cosd (m_acosd cbr)) (m_cosd (m_acosd cgr))).
  rewrite !cosd_acosd by lra. rewrite gram_rec. assert (0 < V * V / (sa * sb * sg)) by (apply Rdiv_lt_0_compat; repeat apply Rmult_lt_0_compat; auto).
  apply Rmult_lt_0_compat; auto.
Qed.

(** the exchanged parameters are those of the reciprocal cell *)
Lemma recip_make : lp_reciprocal l = lp_make ar br cr (m_acosd car) (m_acosd cbr) (m_acosd cgr).
Proof.
  destruct signs as (A & B & C & SA & SB & SG & VP & VV). destruct cos_in as (Ca & Cb & Cg). destruct sin_rec as (S1 & S2 & S3). destruct sins as (E1 & E2 & E3).
  unfold lp_make. rewrite !cosd_acosd, !sind_acosd by lra. rewrite vol_rec, S1, S2, S3.
  unfold l, lp_make, lp_reciprocal. cbn [lp_a lp_b lp_c lp_ca lp_cb lp_cg lp_sa lp_sb lp_sg lp_ar lp_br lp_cr lp_car lp_cbr lp_cgr lp_sar lp_sbr lp_sgr].
  fold ca cb cg sa sb sg V car cbr cgr. fold ar br cr. rewrite S1, S2, S3.
  assert (F1 : (cbr * cgr - car) / (V / (sa * sg) * (V / (sa * sb))) = ca) by (unfold car, cbr, cgr; apply back; lra).
  assert (F2 : (car * cgr - cbr) / (V / (sb * sg) * (V / (sa * sb))) = cb).
  { unfold car, cbr, cgr. pose proof (back sb cb ca cg sa sg) as K.
    rewrite (Rmult_comm ca cb), (Rmult_comm sa sb). apply K; try lra. rewrite VV. unfold gram. ring. }
  assert (F3 : (car * cbr - cgr) / (V / (sb * sg) * (V / (sa * sg))) = cg).
  { unfold car, cbr, cgr. pose proof (back sg cg ca cb sa sb) as K.
    replace (cb * cg - ca) with (cg * cb - ca) by ring. replace (ca * cg - cb) with (cg * ca - cb) by ring.
    rewrite (Rmult_comm sb sg), (Rmult_comm sa sg). apply K; try lra. rewrite VV. unfold gram. ring. }
  rewrite F1, F2, F3.
  replace (sqrt (1 - ca * ca)) with sa by (symmetry; apply sqrt_of; lra).
  replace (sqrt (1 - cb * cb)) with sb by (symmetry; apply sqrt_of; lra).
  replace (sqrt (1 - cg * cg)) with sg by (symmetry; apply sqrt_of; lra).
  replace (V / (sb * sg) / (ar * (V * V / (sa * sb * sg)))) with a by (unfold ar; field; repeat split; lra).
  replace (V / (sa * sg) / (br * (V * V / (sa * sb * sg)))) with b by (unfold br; field; repeat split; lra).
  replace (V / (sa * sb) / (cr * (V * V / (sa * sb * sg)))) with c by (unfold cr; field; repeat split; lra).
  reflexivity.
Qed.

(** * lengths in the reciprocal lattice *)
Let a0 := vec3 a b c. Let win := vec3 alpha beta gamma.
Let g := metric a0 win. Let r := rmetric a0 win.

Lemma cell_ok : 0 < gram (m_cosd (win 0%nat)) (m_cosd (win 1%nat)) (m_cosd (win 2%nat)) /\ a0 0%nat <> 0 /\ a0 1%nat <> 0 /\ a0 2%nat <> 0.
Proof. destruct signs as (A & B & C & _). split. exact gram_pos. unfold a0, vec3. repeat split; lra. Qed.

Lemma rm_ext (x y x' y' : v3) i j : (forall k, (k < 3)%nat -> x k = x' k /\ y k = y' k) -> (i < 3)%nat -> (j < 3)%nat -> metric x y i j = metric x' y' i j.
Proof.
  intros H I J. destruct (H 0%nat) as [X0 Y0]; [lia|]. destruct (H 1%nat) as [X1 Y1]; [lia|]. destruct (H 2%nat) as [X2 Y2]; [lia|].
  destruct i as [|[|[|i]]]; try lia; destruct j as [|[|[|j]]]; try lia; unfold metric, cell_cos; cbn [Nat.eqb Nat.add]; rewrite ?X0, ?X1, ?X2, ?Y0, ?Y1, ?Y2; reflexivity.
Qed.
Lemma dot_ext (s t : t33) h : (forall i j, (i < 3)%nat -> (j < 3)%nat -> s i j = t i j) -> dot33 s h h = dot33 t h h.
Proof. intros H. unfold dot33. rewrite !H by lia. reflexivity. Qed.

Lemma recip_met i j : (i < 3)%nat -> (j < 3)%nat -> metric (vec3 ar br cr) (vec3 (m_acosd car) (m_acosd cbr) (m_acosd cgr)) i j = r i j.
Proof.
  destruct cell_ok as (G & N0 & N1 & N2). destruct signs as (A & B & C & SA & SB & SG & VP & VV).
  intros I J. unfold r. rewrite <- (recip_metric a0 win G N0 N1 N2 i j I J). apply rm_ext; auto.
  intros k K. assert (EV : sqrt (gram (m_cosd (win 0%nat)) (m_cosd (win 1%nat)) (m_cosd (win 2%nat))) = V).
  { unfold V. f_equal. change (m_cosd (win 0%nat)) with ca. change (m_cosd (win 1%nat)) with cb. change (m_cosd (win 2%nat)) with cg. unfold gram. ring. }
  rewrite EV.
  destruct k as [|[|[|k]]]; try lia; unfold vec3; cbn [Nat.add Nat.modulo Nat.divmod fst snd Nat.sub]; unfold a0, win, vec3; fold ca cb cg sa sb sg.
  - split. unfold ar. field. repeat split; lra. reflexivity.
  - split. unfold br. field. repeat split; lra. unfold cbr. f_equal. rewrite (Rmult_comm cg ca), (Rmult_comm sg sa). reflexivity.
  - split. unfold cr. field. repeat split; lra. reflexivity.
Qed.

Lemma recip_dot h : dot33 (metric (vec3 ar br cr) (vec3 (m_acosd car) (m_acosd cbr) (m_acosd cgr))) h h = dot33 r h h.
Proof. apply dot_ext. exact recip_met. Qed.

Lemma recip_cell : exists a' b' c' alpha' beta' gamma', proper_cell a' b' c' alpha' beta' gamma' /\
  lp_reciprocal l = lp_make a' b' c' alpha' beta' gamma' /\
  forall i j, (i < 3)%nat -> (j < 3)%nat ->
    mul33 (metric (vec3 a b c) (vec3 alpha beta gamma)) (metric (vec3 a' b' c') (vec3 alpha' beta' gamma')) i j = one33 i j.
Proof.
  exists ar, br, cr, (m_acosd car), (m_acosd cbr), (m_acosd cgr). split. exact recip_proper. split. exact recip_make.
  intros i j I J. destruct cell_ok as (G & N0 & N1 & N2). rewrite <- (proj1 (rmetric_inverse a0 win G N0 N1 N2 i j I J)). fold a0 win. unfold mul33. rewrite !recip_met by lia. reflexivity.
Qed.

Definition hv (h k o : Z) : v3 := vec3 (IZR h) (IZR k) (IZR o).
Lemma recip_r h k o : lp_r (lp_reciprocal l) h k o = sqrt (dot33 r (hv h k o) (hv h k o)).
Proof.
  rewrite recip_make. destruct (node_dist_form ar br cr (m_acosd car) (m_acosd cbr) (m_acosd cgr) 0 0 recip_proper h k o) as [E1 E2].
  rewrite E2, <- E1. unfold node_dist. f_equal. apply recip_dot.
Qed.
Lemma recip_dist h k o : node_dist ar br cr (m_acosd car) (m_acosd cbr) (m_acosd cgr) h k o = lp_r (lp_reciprocal l) h k o.
Proof.
  rewrite recip_make. destruct (node_dist_form ar br cr (m_acosd car) (m_acosd cbr) (m_acosd cgr) 0 0 recip_proper h k o) as [E1 E2]. rewrite E1, E2. reflexivity.
Qed.

(** the reciprocal metric is positive definite *)
Let up (h : v3) : v3 := fun i => r i 0%nat * h 0%nat + r i 1%nat * h 1%nat + r i 2%nat * h 2%nat.
Lemma g_up h X : dot33 g X (up h) = X 0%nat * h 0%nat + X 1%nat * h 1%nat + X 2%nat * h 2%nat.
Proof.
  destruct cell_ok as (G & N0 & N1 & N2). assert (I := rmetric_inverse a0 win G N0 N1 N2). fold g r in I.
  assert (J : forall i j, (i < 3)%nat -> (j < 3)%nat -> g i 0%nat * r 0%nat j + g i 1%nat * r 1%nat j + g i 2%nat * r 2%nat j = if (i =? j)%nat then 1 else 0).
  { intros i j Hi Hj. exact (proj1 (I i j Hi Hj)). }
  transitivity (X 0%nat * ((g 0%nat 0%nat * r 0%nat 0%nat + g 0%nat 1%nat * r 1%nat 0%nat + g 0%nat 2%nat * r 2%nat 0%nat) * h 0%nat + (g 0%nat 0%nat * r 0%nat 1%nat + g 0%nat 1%nat * r 1%nat 1%nat + g 0%nat 2%nat * r 2%nat 1%nat) * h 1%nat + (g 0%nat 0%nat * r 0%nat 2%nat + g 0%nat 1%nat * r 1%nat 2%nat + g 0%nat 2%nat * r 2%nat 2%nat) * h 2%nat)
    + X 1%nat * ((g 1%nat 0%nat * r 0%nat 0%nat + g 1%nat 1%nat * r 1%nat 0%nat + g 1%nat 2%nat * r 2%nat 0%nat) * h 0%nat + (g 1%nat 0%nat * r 0%nat 1%nat + g 1%nat 1%nat * r 1%nat 1%nat + g 1%nat 2%nat * r 2%nat 1%nat) * h 1%nat + (g 1%nat 0%nat * r 0%nat 2%nat + g 1%nat 1%nat * r 1%nat 2%nat + g 1%nat 2%nat * r 2%nat 2%nat) * h 2%nat)
    + X 2%nat * ((g 2%nat 0%nat * r 0%nat 0%nat + g 2%nat 1%nat * r 1%nat 0%nat + g 2%nat 2%nat * r 2%nat 0%nat) * h 0%nat + (g 2%nat 0%nat * r 0%nat 1%nat + g 2%nat 1%nat * r 1%nat 1%nat + g 2%nat 2%nat * r 2%nat 1%nat) * h 1%nat + (g 2%nat 0%nat * r 0%nat 2%nat + g 2%nat 1%nat * r 1%nat 2%nat + g 2%nat 2%nat * r 2%nat 2%nat) * h 2%nat)).
  - unfold dot33, up. ring.
  - rewrite !J by lia. cbn [Nat.eqb]. ring.
Qed.
Lemma up_len h : dot33 g (up h) (up h) = dot33 r h h.
Proof. rewrite g_up. unfold up, dot33. ring. Qed.
Lemma g_pos h : 0 <= dot33 g h h /\ (dot33 g h h = 0 -> h 0%nat = 0 /\ h 1%nat = 0 /\ h 2%nat = 0).
Proof. destruct cell_ok as (G & N0 & N1 & N2). exact (metric_pos a0 win G N0 N1 N2 h). Qed.
Lemma r_pos h : (h 0%nat <> 0 \/ h 1%nat <> 0 \/ h 2%nat <> 0) -> 0 < dot33 r h h.
Proof.
  intros H. rewrite <- up_len. destruct (g_pos (up h)) as [P Q]. destruct (Rle_lt_or_eq_dec _ _ P) as [L|E]; auto. symmetry in E. destruct (Q E) as (U0 & U1 & U2).
  exfalso. assert (Z : forall X, dot33 g X (up h) = 0) by (intros X; unfold dot33; rewrite U0, U1, U2; ring).
  assert (Y := Z h). rewrite g_up in Y. pose proof (Rle_0_sqr (h 0%nat)). pose proof (Rle_0_sqr (h 1%nat)). pose proof (Rle_0_sqr (h 2%nat)). unfold Rsqr in *.
  assert (h 0%nat = 0) by (apply Rsqr_0_uniq; unfold Rsqr; lra). assert (h 1%nat = 0) by (apply Rsqr_0_uniq; unfold Rsqr; lra). assert (h 2%nat = 0) by (apply Rsqr_0_uniq; unfold Rsqr; lra). tauto.
Qed.

Lemma hv_nz h k o : (h, k, o) <> (0, 0, 0)%Z -> hv h k o 0%nat <> 0 \/ hv h k o 1%nat <> 0 \/ hv h k o 2%nat <> 0.
Proof.
  intros N. unfold hv, vec3. destruct (Z.eq_dec h 0) as [->|H]; [|left; apply not_0_IZR; auto]. destruct (Z.eq_dec k 0) as [->|K]; [|right; left; apply not_0_IZR; auto].
  destruct (Z.eq_dec o 0) as [->|O]; [|right; right; apply not_0_IZR; auto]. congruence.
Qed.

(** the spacing is the inverse of the length *)
Lemma spacing_of h k o : (h, k, o) <> (0, 0, 0)%Z -> 0 < lp_r (lp_reciprocal l) h k o /\ plane_spacing a b c alpha beta gamma h k o (1 / lp_r (lp_reciprocal l) h k o).
Proof.
  intros N. rewrite recip_r. set (H := hv h k o). assert (P : 0 < dot33 r H H) by (apply r_pos, hv_nz; auto).
  set (D := dot33 r H H) in *. assert (S : 0 < sqrt D) by (apply sqrt_lt_R0; auto). assert (SS : sqrt D * sqrt D = D) by (apply sqrt_sqrt; lra).
  split; auto.
  assert (L0 : 1 / sqrt D = sqrt (1 / D)). { symmetry. apply sqrt_of. apply Rlt_le, Rdiv_lt_0_compat; lra. rewrite <- SS at 1. field. lra. }
  assert (ON : forall X, on_plane h k o X <-> dot33 g X (up H) = 1).
  { intros X. rewrite g_up. unfold on_plane, H, hv, vec3. split; intros E; rewrite <- E; ring. }
  split. apply Rdiv_lt_0_compat; lra. rewrite L0. split.
  - exists (fun i => up H i * (1 / D)). split.
    + apply ON. transitivity (dot33 g (up H) (up H) * (1 / D)). unfold dot33. ring. rewrite up_len. fold D. field. lra.
    + unfold vec_len. fold a0 win g. f_equal. transitivity (dot33 g (up H) (up H) * (1 / D) * (1 / D)). unfold dot33. ring. rewrite up_len. fold D. field. lra.
  - intros X E. apply ON in E. unfold vec_len. fold a0 win g. apply sqrt_le_1_alt.
    set (Y := fun i => X i - up H i * (1 / D)).
    destruct (g_pos Y) as [Q _].
    assert (SY : forall u v, dot33 g u v = dot33 g v u).
    { intros u v. unfold dot33. unfold g. rewrite (metric_sym a0 win 1 0), (metric_sym a0 win 2 0), (metric_sym a0 win 2 1). ring. }
    assert (EX : dot33 g Y Y = dot33 g X X - dot33 g X (up H) * (1 / D) - dot33 g (up H) X * (1 / D) + dot33 g (up H) (up H) * (1 / D) * (1 / D)) by (unfold Y, dot33; ring).
    rewrite (SY (up H) X), E, up_len in EX. fold D in EX. replace (D * (1 / D) * (1 / D)) with (1 / D) in EX by (field; lra). lra.
Qed.
End Recip.

Lemma spacing_unique a b c alpha beta gamma h k o d d' : plane_spacing a b c alpha beta gamma h k o d -> plane_spacing a b c alpha beta gamma h k o d' -> d = d'.
Proof. intros (_ & (X & X1 & X2) & X3) (_ & (Y & Y1 & Y2) & Y3). specialize (X3 Y Y1). specialize (Y3 X X1). lra. Qed.
Lemma spacing_nz a b c alpha beta gamma h k o d : plane_spacing a b c alpha beta gamma h k o d -> (h, k, o) <> (0, 0, 0)%Z.
Proof. intros (_ & (X & X1 & _) & _) E. injection E as -> -> ->. unfold on_plane in X1. lra. Qed.

(** * the statements *)
Lemma q_scattering a b c alpha beta gamma h k o : proper_cell a b c alpha beta gamma ->
  scattering a b c alpha beta gamma h k o (refl_Q (lp_make a b c alpha beta gamma) h k o).
Proof.
  intros P. unfold scattering. assert (D : {(h, k, o) = (0, 0, 0)%Z} + {(h, k, o) <> (0, 0, 0)%Z}) by (repeat decide equality). destruct D as [E|N].
  - left. split; auto. injection E as -> -> ->. unfold refl_Q. rewrite recip_r by auto.
    replace (dot33 _ _ _) with 0 by (unfold dot33, hv, vec3; ring). rewrite sqrt_0. ring.
  - right. destruct (spacing_of a b c alpha beta gamma P h k o N) as [L S]. eexists. split. exact S. unfold refl_Q. field. lra.
Qed.

Lemma scattering_unique a b c alpha beta gamma h k o q q' : scattering a b c alpha beta gamma h k o q -> scattering a b c alpha beta gamma h k o q' -> q = q'.
Proof.
  intros [[E ->]|(d & S & ->)] [[E' ->]|(d' & S' & ->)]; auto.
  - apply spacing_nz in S'. contradiction.
  - apply spacing_nz in S. contradiction.
  - rewrite (spacing_unique _ _ _ _ _ _ _ _ _ _ _ S S'). reflexivity.
Qed.

Lemma spacing_reported a b c alpha beta gamma h k o : proper_cell a b c alpha beta gamma -> (h, k, o) <> (0, 0, 0)%Z ->
  exists d, plane_spacing a b c alpha beta gamma h k o d /\ refl_d (lp_make a b c alpha beta gamma) h k o = Some d /\
    refl_Q (lp_make a b c alpha beta gamma) h k o = 2 * PI / d.
Proof.
  intros P N. destruct (spacing_of a b c alpha beta gamma P h k o N) as [L S]. eexists. split. exact S. split.
  - unfold refl_d, ndiv. destruct (Req_EM_T _ 0); [lra|]. reflexivity.
  - unfold refl_Q. field. lra.
Qed.

Lemma origin_reported a b c alpha beta gamma : proper_cell a b c alpha beta gamma ->
  refl_d (lp_make a b c alpha beta gamma) 0 0 0 = None /\ refl_Q (lp_make a b c alpha beta gamma) 0 0 0 = 0.
Proof.
  intros P. destruct (q_scattering a b c alpha beta gamma 0 0 0 P) as [[_ E]|(d & S & _)]; [|apply spacing_nz in S; congruence].
  split; auto. pose proof PI_RGT_0. unfold refl_Q in E. apply Rmult_integral in E. destruct E as [E|E]; [lra|].
  unfold refl_d. rewrite E. unfold ndiv. destruct (Req_EM_T 0 0); congruence.
Qed.

Lemma limit q x : q * (1 / PI) / 2 <= x <-> q <= 2 * PI * x.
Proof.
  pose proof PI_RGT_0 as P. assert (E : q = 2 * PI * (q * (1 / PI) / 2)) by (field; lra). set (y := q * (1 / PI) / 2) in *. rewrite E. split; intros H.
  - apply Rmult_le_compat_l; lra.
  - apply Rmult_le_reg_l with (2 * PI); lra.
Qed.

Lemma reflections_found a b c alpha beta gamma qmin qmax : proper_cell a b c alpha beta gamma ->
  exists fuel0 L,
    (forall fuel, (fuel0 <= fuel)%nat -> refl_points fuel qmin qmax (lp_make a b c alpha beta gamma) = Ok L) /\ NoDup L /\
    (forall h k o q, scattering a b c alpha beta gamma h k o q -> In (h, k, o) L -> q < qmax) /\
    (forall h k o q, scattering a b c alpha beta gamma h k o q -> qmin <= q < qmax -> In (h, k, o) L) /\
    ((forall h k o, ~ scattering a b c alpha beta gamma h k o qmin) ->
     forall h k o q, scattering a b c alpha beta gamma h k o q -> In (h, k, o) L -> qmin < q).
Proof.
  intros P. pose proof (recip_proper _ _ _ _ _ _ P) as R.
  destruct (sphere_points _ _ _ _ _ _ (qmin * (1 / PI) / 2) (qmax * (1 / PI) / 2) R) as (f & L & H1 & H2 & H3 & H4 & H5).
  assert (E : forall h k o q, scattering a b c alpha beta gamma h k o q -> q = 2 * PI * lp_r (lp_reciprocal (lp_make a b c alpha beta gamma)) h k o).
  { intros h k o q S. apply (scattering_unique _ _ _ _ _ _ _ _ _ _ _ S). apply q_scattering; auto. }
  assert (U : forall q x, x < q * (1 / PI) / 2 <-> 2 * PI * x < q).
  { intros q x. destruct (limit q x) as [A B]. split; intros C; apply Rnot_le_lt; intros D; [apply B in D|apply A in D]; lra. }
  exists f, L. split; [|split; [auto|split; [|split]]].
  - intros fuel F. unfold refl_points. rewrite recip_make by auto. apply H1; auto.
  - intros h k o q S I. rewrite (E _ _ _ _ S). apply U. rewrite <- recip_dist by auto. apply H3; auto.
  - intros h k o q S [I J]. rewrite (E _ _ _ _ S) in *. apply H4. rewrite recip_dist by auto. split. apply limit; auto. apply U; auto.
  - intros N h k o q S I. rewrite (E _ _ _ _ S). apply Rnot_le_lt. intros Q.
    assert (K : forall h' k' o', lp_r (lp_reciprocal (lp_make a b c alpha beta gamma)) h' k' o' <> qmin * (1 / PI) / 2).
    { intros h' k' o' Z. apply (N h' k' o'). pose proof PI_RGT_0. replace qmin with (refl_Q (lp_make a b c alpha beta gamma) h' k' o'). apply q_scattering; auto.
      unfold refl_Q. rewrite Z. field. lra. }
    assert (LT : lp_r (lp_reciprocal (lp_make a b c alpha beta gamma)) h k o < qmin * (1 / PI) / 2).
    { apply Rnot_le_lt. intros Z. apply (K h k o). apply Rle_antisym; auto. apply Rnot_lt_le. intros Y.
      pose proof PI_RGT_0. assert (qmin = 2 * PI * (qmin * (1 / PI) / 2)) by (field; lra).
      assert (2 * PI * (qmin * (1 / PI) / 2) < 2 * PI * lp_r (lp_reciprocal (lp_make a b c alpha beta gamma)) h k o) by (apply Rmult_lt_compat_l; lra). lra. }
    rewrite <- recip_dist in LT by auto. destruct (H5 h k o I LT) as (o' & Z). rewrite recip_dist in Z by auto. apply (K h k o'); auto.
Qed.

Lemma inv_lt x y : 0 < x -> 0 < y -> (2 * PI / x < 2 * PI / y <-> y < x).
Proof.
  intros X Y. pose proof PI_RGT_0 as P. assert (forall u v, 0 < u -> 0 < v -> u < v -> 2 * PI / v < 2 * PI / u).
  { intros u v U V H. unfold Rdiv. apply Rmult_lt_compat_l. lra. apply Rinv_lt_contravar; auto. apply Rmult_lt_0_compat; auto. }
  split; intros Z; [|apply H; auto]. destruct (Rtotal_order y x) as [A|[A|A]]; auto. subst. lra. specialize (H x y X Y A). lra.
Qed.

Lemma inv_lt1 x y : 2 * PI / x < 2 * PI / y -> 0 < x -> 0 < y -> y < x.
Proof. intros H X Y. exact (proj1 (inv_lt x y X Y) H). Qed.
Lemma spacings_found a b c alpha beta gamma dmax dmin : proper_cell a b c alpha beta gamma -> 0 < dmax -> 0 < dmin ->
  exists fuel0 L,
    (forall fuel, (fuel0 <= fuel)%nat -> dspacing_points fuel dmax dmin (lp_make a b c alpha beta gamma) = Ok L) /\ NoDup L /\
    (forall h k o d, plane_spacing a b c alpha beta gamma h k o d -> In (h, k, o) L -> dmin < d) /\
    (forall h k o d, plane_spacing a b c alpha beta gamma h k o d -> dmin < d <= dmax -> In (h, k, o) L) /\
    ((forall h k o, ~ plane_spacing a b c alpha beta gamma h k o dmax) -> ~ In (0, 0, 0)%Z L /\
     forall h k o d, plane_spacing a b c alpha beta gamma h k o d -> In (h, k, o) L -> d < dmax).
Proof.
  intros P X N. destruct (reflections_found a b c alpha beta gamma (2 * PI / dmax) (2 * PI / dmin) P) as (f & L & H1 & H2 & H3 & H4 & H5). pose proof PI_RGT_0 as PI0.
  assert (SC : forall h k o d, plane_spacing a b c alpha beta gamma h k o d -> 0 < d /\ scattering a b c alpha beta gamma h k o (2 * PI / d)).
  { intros h k o d S. split. apply S. right. exists d. auto. }
  exists f, L. split; [|split; [auto|split; [|split]]].
  - intros fuel F. unfold dspacing_points. destruct (Req_EM_T dmax 0); [lra|]. destruct (Req_EM_T dmin 0); [lra|]. apply H1; auto.
  - intros h k o d S I. destruct (SC _ _ _ _ S) as [D Q]. specialize (H3 _ _ _ _ Q I). apply inv_lt1 in H3; auto.
  - intros h k o d S [I J]. destruct (SC _ _ _ _ S) as [D Q]. apply (H4 _ _ _ _ Q). split; [|apply inv_lt; auto].
    apply Rnot_lt_le. intros Z. apply inv_lt1 in Z; auto. lra.
  - intros K. assert (K' : forall h k o, ~ scattering a b c alpha beta gamma h k o (2 * PI / dmax)).
    { intros h k o [[_ E]|(d & S & E)].
      - assert (0 < 2 * PI / dmax) by (apply Rdiv_lt_0_compat; lra). lra.
      - destruct (SC _ _ _ _ S) as [D _]. apply (K h k o). replace dmax with d; auto.
        destruct (Rtotal_order d dmax) as [A|[A|A]]; auto; exfalso; [assert (Z := proj2 (inv_lt dmax d X D) A)|assert (Z := proj2 (inv_lt d dmax D X) A)]; lra. }
    specialize (H5 K'). split.
    + intros I. assert (Q : scattering a b c alpha beta gamma 0 0 0 0) by (left; auto). specialize (H5 _ _ _ _ Q I).
      assert (0 < 2 * PI / dmax) by (apply Rdiv_lt_0_compat; lra). lra.
    + intros h k o d S I. destruct (SC _ _ _ _ S) as [D Q]. specialize (H5 _ _ _ _ Q I). apply inv_lt1 in H5; auto.
Qed.

(** a cubic crystal with the edge x *)
Lemma cubic_recip x : 0 < x -> lp_reciprocal (lp_make x x x 90 90 90) = lp_make (1 / x) (1 / x) (1 / x) 90 90 90.
Proof.
  intros X. assert (C : m_cosd 90 = 0) by (unfold m_cosd, rad; replace (PI / 180 * 90) with (PI / 2) by lra; apply cos_PI2).
  assert (S : m_sind 90 = 1) by (unfold m_sind, rad; replace (PI / 180 * 90) with (PI / 2) by lra; apply sin_PI2).
  unfold lp_make, lp_reciprocal. cbn [lp_a lp_b lp_c lp_ca lp_cb lp_cg lp_sa lp_sb lp_sg lp_ar lp_br lp_cr lp_car lp_cbr lp_cgr lp_sar lp_sbr lp_sgr].
  rewrite C, S. replace (1 + 2 * 0 * 0 * 0 - 0 * 0 - 0 * 0 - 0 * 0) with 1 by ring. rewrite sqrt_1.
  replace ((0 * 0 - 0) / (1 * 1)) with 0 by field. replace (1 - 0 * 0) with 1 by ring. rewrite sqrt_1.
  replace (1 / (1 / x * 1)) with x by (field; lra). replace (1 / (x * 1)) with (1 / x) by (field; lra). reflexivity.
Qed.

(** asked for the spacings up to the edge itself the sequencer also gives 0 0 0 *)
Lemma cubic_origin x dmin : 0 < x -> 0 < dmin < x -> exists fuel L,
  dspacing_points fuel x dmin (lp_make x x x 90 90 90) = Ok L /\ In (0, 0, 0)%Z L.
Proof.
  intros X D. pose proof PI_RGT_0 as P. assert (I : 0 < 1 / x) by (apply Rdiv_lt_0_compat; lra).
  assert (LT : IZR 1 * (1 / x) < 1 / dmin). { rewrite Rmult_1_l. unfold Rdiv. rewrite !Rmult_1_l. apply Rinv_lt_contravar; try lra. apply Rmult_lt_0_compat; lra. }
  destruct (origin_visited (1 / x) (1 / x) (1 / x) 90 90 90 (1 / dmin) 1 (cubic_proper _ I) ltac:(lia) LT) as (f & L & E & O).
  exists f, L. split; auto. unfold dspacing_points. destruct (Req_EM_T x 0); [lra|]. destruct (Req_EM_T dmin 0); [lra|]. unfold refl_points. rewrite cubic_recip by auto.
  rewrite <- E. f_equal; field; lra.
Qed.
