(** Geometry of the pair search: lengths, displacements, the sphere of lattice points. *)
From Coq Require Import List Arith ZArith Reals Bool Lia Lra.
From Verif Require Import Base RSum MathModel MetricModel MetricSpec MetricProof SphereModel SphereSpec SphereProof PdfModel PdfSpec PdfProof.
Import ListNotations.
Local Open Scope R_scope.

(** ** the metric as a quadratic form *)
Definition comb (x : R) (h : v3) (y : R) (k : v3) : v3 := fun i => x * h i + y * k i.
Section Form.
Variable g : t33.
Hypothesis sym : forall i j, g i j = g j i.
Hypothesis psd : forall h, 0 <= dot33 g h h.
Let q h := dot33 g h h.
Lemma dot_comb x h y k : q (comb x h y k) = x * x * q h + 2 * (x * y) * dot33 g h k + y * y * q k.
Proof. unfold q, comb, dot33. rewrite (sym 1 0), (sym 2 0), (sym 2 1). ring. Qed.
Lemma cauchy h k : dot33 g h k * dot33 g h k <= q h * q k.
Proof.
  pose proof (psd (comb (q k) h (- dot33 g h k) k)) as P1. fold (q (comb (q k) h (- dot33 g h k) k)) in P1. rewrite dot_comb in P1.
  pose proof (psd (comb (- dot33 g h k) h (q h) k)) as P2. fold (q (comb (- dot33 g h k) h (q h) k)) in P2. rewrite dot_comb in P2.
  pose proof (psd (comb 1 h (-1) k)) as P3. fold (q (comb 1 h (-1) k)) in P3. rewrite dot_comb in P3.
  pose proof (psd (comb 1 h 1 k)) as P4. fold (q (comb 1 h 1 k)) in P4. rewrite dot_comb in P4.
  pose proof (psd h) as Ph. pose proof (psd k) as Pk. fold (q h) in Ph. fold (q k) in Pk.
  set (a := q h) in *. set (b := q k) in *. set (c := dot33 g h k) in *. clearbody a b c.
  destruct (Req_dec a 0) as [A|A]; [|destruct (Req_dec b 0) as [B|B]].
  - subst a. destruct (Req_dec b 0) as [->|B]. assert (c = 0) by lra. subst. lra. nra.
  - subst b. nra.
  - assert (0 < b) by lra. assert (0 <= b * (a * b - c * c)) by nra. nra.
Qed.
Definition nrm h := sqrt (q h).
Lemma nrm_sq h : nrm h * nrm h = q h. Proof. apply sqrt_sqrt, psd. Qed.
Lemma nrm_nn h : 0 <= nrm h. Proof. apply R_sqrt.sqrt_pos. Qed.
Lemma nrm_tri h k l : (forall i, (i < 3)%nat -> l i = h i + k i) -> nrm l <= nrm h + nrm k.
Proof.
  intros E. pose proof (nrm_nn h). pose proof (nrm_nn k). pose proof (nrm_nn l).
  assert (X : q l = q h + 2 * dot33 g h k + q k).
  { transitivity (q (comb 1 h 1 k)). unfold q, dot33, comb. rewrite !E by lia. ring. rewrite dot_comb. ring. }
  pose proof (cauchy h k) as C. pose proof (nrm_sq h). pose proof (nrm_sq k). pose proof (nrm_sq l).
  assert (dot33 g h k <= nrm h * nrm k).
  { destruct (Rle_dec (dot33 g h k) 0). assert (0 <= nrm h * nrm k) by (apply Rmult_le_pos; auto). lra.
    apply Rsqr_incr_0_var. unfold Rsqr. rewrite <- H2, <- H3 in C. lra. apply Rmult_le_pos; auto. }
  apply Rsqr_incr_0_var; [|lra]. unfold Rsqr. rewrite H4, X, <- H2, <- H3. lra.
Qed.
Lemma nrm_opp h k : (forall i, (i < 3)%nat -> k i = - h i) -> nrm k = nrm h.
Proof. intros E. unfold nrm, q. f_equal. unfold dot33. rewrite !E by lia. ring. Qed.
Lemma nrm_ext h k : (forall i, (i < 3)%nat -> k i = h i) -> nrm k = nrm h.
Proof. intros E. unfold nrm, q. f_equal. unfold dot33. rewrite !E by lia. ring. Qed.
Lemma nrm_scale x h k : (forall i, (i < 3)%nat -> k i = x * h i) -> 0 <= x -> nrm k = x * nrm h.
Proof.
  intros E X. unfold nrm. replace (q k) with (x * x * q h). rewrite sqrt_mult_alt by (apply Rmult_le_pos; auto). rewrite sqrt_square; auto.
  unfold q, dot33. rewrite !E by lia. ring.
Qed.
(** a convex combination is not longer than both *)
Lemma nrm_conv h k l t M : 0 <= t <= 1 -> (forall i, (i < 3)%nat -> l i = t * h i + (1 - t) * k i) -> nrm h <= M -> nrm k <= M -> nrm l <= M.
Proof.
  intros T E H K. pose proof (nrm_tri (fun i => t * h i) (fun i => (1 - t) * k i) l E) as P.
  rewrite (nrm_scale t h (fun i => t * h i)) in P by (intros; reflexivity || lra). rewrite (nrm_scale (1 - t) k (fun i => (1 - t) * k i)) in P by (intros; reflexivity || lra).
  assert (t * nrm h <= t * M) by (apply Rmult_le_compat_l; lra). assert ((1 - t) * nrm k <= (1 - t) * M) by (apply Rmult_le_compat_l; lra). lra.
Qed.
(** a vector in the cube is not longer than the longest diagonal *)
Lemma nrm_cube M h : nrm (vec3 1 1 1) <= M -> nrm (vec3 (-1) 1 1) <= M -> nrm (vec3 1 (-1) 1) <= M -> nrm (vec3 1 1 (-1)) <= M ->
  (forall i, (i < 3)%nat -> Rabs (h i) <= 1) -> nrm h <= M.
Proof.
  intros D1 D2 D3 D4 H.
  assert (B : forall i, (i < 3)%nat -> -1 <= h i <= 1). { intros i Hi. specialize (H i Hi). unfold Rabs in H. destruct (Rcase_abs (h i)); lra. }
  assert (O1 : nrm (vec3 (-1) (-1) (-1)) <= M) by (rewrite (nrm_opp (vec3 1 1 1)); auto; intros [|[|[|?]]] ?; simpl; lra || lia).
  assert (O2 : nrm (vec3 1 (-1) (-1)) <= M) by (rewrite (nrm_opp (vec3 (-1) 1 1)); auto; intros [|[|[|?]]] ?; simpl; lra || lia).
  assert (O3 : nrm (vec3 (-1) 1 (-1)) <= M) by (rewrite (nrm_opp (vec3 1 (-1) 1)); auto; intros [|[|[|?]]] ?; simpl; lra || lia).
  assert (O4 : nrm (vec3 (-1) (-1) 1) <= M) by (rewrite (nrm_opp (vec3 1 1 (-1))); auto; intros [|[|[|?]]] ?; simpl; lra || lia).
  pose proof (B 0%nat ltac:(lia)) as B0. pose proof (B 1%nat ltac:(lia)) as B1. pose proof (B 2%nat ltac:(lia)) as B2.
  assert (S1 : forall y z, (y = 1 \/ y = -1) -> (z = 1 \/ z = -1) -> nrm (vec3 (h 0%nat) y z) <= M).
  { intros y z Y Z. apply (nrm_conv (vec3 1 y z) (vec3 (-1) y z) _ ((1 + h 0%nat) / 2)). lra.
    intros [|[|[|?]]] ?; simpl; lra || lia. destruct Y, Z; subst; auto. destruct Y, Z; subst; auto. }
  assert (S2 : forall z, (z = 1 \/ z = -1) -> nrm (vec3 (h 0%nat) (h 1%nat) z) <= M).
  { intros z Z. apply (nrm_conv (vec3 (h 0%nat) 1 z) (vec3 (h 0%nat) (-1) z) _ ((1 + h 1%nat) / 2)). lra.
    intros [|[|[|?]]] ?; simpl; lra || lia. apply S1; auto. apply S1; auto. }
  apply (nrm_conv (vec3 (h 0%nat) (h 1%nat) 1) (vec3 (h 0%nat) (h 1%nat) (-1)) _ ((1 + h 2%nat) / 2)). lra.
  intros [|[|[|?]]] ?; simpl; lra || lia. apply S2; auto. apply S2; auto.
Qed.
End Form.

Lemma max4 a b c d : 0 <= a -> let m := fold_left (fun m n => if Rlt_dec m n then n else m) [a; b; c; d] (-1) in a <= m /\ b <= m /\ c <= m /\ d <= m.
Proof.
  intros A. cbn. destruct (Rlt_dec (-1) a); [|lra]. destruct (Rlt_dec a b), (Rlt_dec _ c), (Rlt_dec _ d); lra.
Qed.

(** ** a phase *)
Lemma lsum_nth (f : catom -> R) l : lsum f l = rsum (length l) (fun i => f (nth i l no_atom)).
Proof.
  induction l as [|a l IH] using rev_ind. reflexivity.
  rewrite lsum_app, app_length, IH. simpl. rewrite Nat.add_1_r. simpl. f_equal.
  - apply rsum_ext. intros i Hi. rewrite app_nth1 by auto. reflexivity.
  - rewrite app_nth2 by lia. rewrite Nat.sub_diag. simpl. lra.
Qed.
Lemma sum_nth (f : catom -> R) l : fold_left (fun s a => s + f a) l 0 = rsum (length l) (fun i => f (nth i l no_atom)).
Proof. rewrite fold_lsum, lsum_nth. lra. Qed.

Section Phase.
Variables (p : cphase) (de : cderived).
Hypothesis LAT : phase_lattice p = Ok de.
Hypothesis PC : proper_cell (cp_a0 p 0%nat) (cp_a0 p 1%nat) (cp_a0 p 2%nat) (cp_win p 0%nat) (cp_win p 1%nat) (cp_win p 2%nat).
Let g := metric (cp_a0 p) (cp_win p).
Hypothesis NT : no_tiny g.
Hypothesis ICC : forall k, (1 <= cp_icc p k)%Z.
Let l := de_lat de.

Lemma lat_ok : lattice (cp_a0 p) (cp_win p) = Ok l.
Proof.
  unfold l. unfold phase_lattice in LAT. destruct (lattice (cp_a0 p) (cp_win p)); try discriminate. simpl in LAT. inversion LAT. reflexivity.
Qed.
Lemma a0_nz k : (k < 3)%nat -> cp_a0 p k <> 0.
Proof. destruct PC as (A & B & C & _). intros. destruct k as [|[|[|k]]]; try lia; lra. Qed.
Lemma gten_dot h k : skalpro (l_gten l) h k = dot33 g h k.
Proof. apply (lattice_metric _ _ _ a0_nz lat_ok NT). Qed.
Lemma gten_el i j : (i < 3)%nat -> (j < 3)%nat -> l_gten l i j = g i j.
Proof. apply (lattice_metric _ _ _ a0_nz lat_ok NT). Qed.
Lemma g_sym i j : g i j = g j i. Proof. apply metric_sym. Qed.
Lemma g_psd h : 0 <= dot33 g h h.
Proof. rewrite <- gten_dot. apply (lattice_metric _ _ _ a0_nz lat_ok NT). Qed.
Lemma length_nrm h : length_of p h = nrm g h. Proof. reflexivity. Qed.
Lemma length_nn h : 0 <= length_of p h. Proof. apply R_sqrt.sqrt_pos. Qed.
Lemma length_sq h : length_of p h * length_of p h = dot33 g h h. Proof. apply sqrt_sqrt, g_psd. Qed.

Lemma v_pos : 0 < l_v l.
Proof.
  pose proof lat_ok as H. pose proof (lattice_gram _ _ _ H) as G. rewrite lattice_spec in H. destruct (Rle_dec _ _); [discriminate|]. inversion H. cbn.
  destruct PC as (A & B & C & _). apply sqrt_lt_R0 in G. repeat apply Rmult_lt_0_compat; auto.
Qed.
Lemma v_is : l_v l = sqrt (det33 g).
Proof.
  destruct (lattice_metric _ _ _ a0_nz lat_ok NT) as (E & V & _). fold g in E.
  assert (D : det33 (l_gten l) = det33 g) by (unfold det33; rewrite !E by lia; reflexivity).
  rewrite <- D, <- V. rewrite sqrt_square; auto. apply Rlt_le, v_pos.
Qed.
Lemma ar_is k : (k < 3)%nat -> l_ar l k = sqrt (rmetric (cp_a0 p) (cp_win p) k k).
Proof.
  intros K. pose proof lat_ok as H. pose proof (lattice_gram _ _ _ H) as G. pose proof v_pos as V.
  rewrite lattice_spec in H. destruct (Rle_dec _ _); [discriminate|]. 
  rewrite <- (recip_metric (cp_a0 p) (cp_win p)) by (auto; apply a0_nz; lia).
  unfold metric. rewrite Nat.eqb_refl. inversion H as [E]. rewrite <- E in V. cbn [l_ar l_v] in *. rewrite sqrt_square; auto.
  destruct PC as (A & B & C & W0 & W1 & W2 & _).
  apply Rlt_le, Rdiv_lt_0_compat; auto. 
  assert (P : forall j, (j < 3)%nat -> 0 < cp_a0 p j) by (intros j ?; destruct j as [|[|[|j]]]; auto; lia).
  repeat apply Rmult_lt_0_compat; try apply P; try (apply Nat.mod_upper_bound; lia).
  apply sin_pos. destruct k as [|[|[|k]]]; auto; lia.
Qed.
Lemma np_is : de_np de = occ_sum p.
Proof.
  unfold phase_lattice in LAT. destruct (lattice (cp_a0 p) (cp_win p)); try discriminate. simpl in LAT. inversion LAT. cbn. apply sum_nth.
Qed.
Lemma rho0_is : de_rho0 de = Some (density p).
Proof.
  pose proof v_pos as V. pose proof v_is as VI. pose proof np_is as N. unfold l in *.
  unfold phase_lattice in LAT. destruct (lattice (cp_a0 p) (cp_win p)); try discriminate. simpl in LAT. inversion LAT as [E]. rewrite <- E in *. cbn in *.
  rewrite N. unfold density. fold g. rewrite <- VI. destruct (Req_EM_T _ 0) as [Z|Z]; auto. exfalso.
  assert (1 <= cp_icc p 0 * cp_icc p 1 * cp_icc p 2)%Z by (pose proof (ICC 0); pose proof (ICC 1); pose proof (ICC 2); nia).
  apply IZR_le in H. apply Rmult_integral in Z. lra.
Qed.

(** the displacement tensor *)
Lemma msd_ok ai aj h : 0 < length_of p h -> msd_atoms l ai aj h = msd p ai aj h.
Proof.
  intros H. unfold msd_atoms, msd. rewrite !gten_dot. change (sqrt (dot33 g h h)) with (length_of p h).
  cbn [fold_left idx3]. fold g. rewrite !gten_el, !ar_is by lia.
  set (r0 := sqrt (rmetric _ _ 0%nat 0%nat)). set (r1 := sqrt (rmetric _ _ 1%nat 1%nat)). set (r2 := sqrt (rmetric _ _ 2%nat 2%nat)).
  set (L := length_of p h) in *. unfold Rdiv. ring.
Qed.
Lemma msd_opp ai aj h k : (forall i, (i < 3)%nat -> k i = - h i) -> msd p aj ai k = msd p ai aj h.
Proof.
  intros E. assert (L : length_of p k = length_of p h) by (apply nrm_opp; auto).
  unfold msd. rewrite L, !E by lia. unfold Rdiv. ring.
Qed.
Lemma msd_ext ai aj h k : (forall i, (i < 3)%nat -> k i = h i) -> msd p ai aj k = msd p ai aj h.
Proof.
  intros E. assert (L : length_of p k = length_of p h) by (apply nrm_ext; auto).
  unfold msd. rewrite L, !E by lia. reflexivity.
Qed.

(** ** the sphere of lattice points *)
Definition trans (t : Z * Z * Z) : v3 := let '(m, n, o) := t in vec3 (IZR m * IZR (cp_icc p 0)) (IZR n * IZR (cp_icc p 1)) (IZR o * IZR (cp_icc p 2)).
Let A k := cp_a0 p k * IZR (cp_icc p k).
Lemma icc_pos k : 0 < IZR (cp_icc p k). Proof. apply IZR_lt. pose proof (ICC k). lia. Qed.
Lemma block_proper : proper_cell (A 0%nat) (A 1%nat) (A 2%nat) (cp_win p 0%nat) (cp_win p 1%nat) (cp_win p 2%nat).
Proof.
  destruct PC as (P0 & P1 & P2 & W). unfold A. repeat split; try (apply Rmult_lt_0_compat; auto; apply icc_pos); apply W.
Qed.
Lemma block_dist m n o : node_dist (A 0%nat) (A 1%nat) (A 2%nat) (cp_win p 0%nat) (cp_win p 1%nat) (cp_win p 2%nat) m n o = length_of p (trans (m, n, o)).
Proof.
  unfold node_dist, length_of. f_equal. unfold dot33, metric, trans, A, vec3, cell_cos. cbn [Nat.eqb Nat.add]. ring.
Qed.

Definition diag_max : R := fold_left (fun m n => if Rlt_dec m n then n else m)
  [length_of p (vec3 1 1 1); length_of p (vec3 (-1) 1 1); length_of p (vec3 1 (-1) 1); length_of p (vec3 1 1 (-1))] (-1).
Lemma circum_is : cp_atoms p <> [] -> circum_diameter l (cp_atoms p) = diag_max * (1 + double_eps) + double_eps.
Proof.
  intros N. unfold circum_diameter. destruct (cp_atoms p); [contradiction|]. unfold diag_max, length_of. rewrite !gten_dot. reflexivity.
Qed.
Lemma diag_bound h : (forall i, (i < 3)%nat -> Rabs (h i) <= 1) -> length_of p h <= diag_max.
Proof.
  intros H. destruct (max4 (length_of p (vec3 1 1 1)) (length_of p (vec3 (-1) 1 1)) (length_of p (vec3 1 (-1) 1)) (length_of p (vec3 1 1 (-1))) (length_nn _)) as (D1 & D2 & D3 & D4).
  apply (nrm_cube g g_sym g_psd); auto.
Qed.
Lemma circum_bound h : cp_atoms p <> [] -> (forall i, (i < 3)%nat -> Rabs (h i) <= 1) -> length_of p h < circum_diameter l (cp_atoms p).
Proof.
  intros N H. rewrite circum_is by auto. pose proof (diag_bound h H). pose proof (length_nn h). pose proof eps_pos.
  assert (0 <= diag_max * double_eps) by (apply Rmult_le_pos; lra). lra.
Qed.
Lemma sep_trans_hi ai aj t : length_of p (trans t) <= length_of p (sep p ai aj t) + length_of p (fun i => at_pos ai i - at_pos aj i).
Proof.
  destruct t as [[m n] o]. rewrite !length_nrm. rewrite <- (nrm_opp g (sep p ai aj (m, n, o)) (fun i => - sep p ai aj (m, n, o) i)) by auto.
  apply (nrm_tri g g_sym g_psd). intros i Hi. destruct i as [|[|[|i]]]; try lia; cbn; ring.
Qed.
Lemma sep_trans_lo ai aj t : length_of p (sep p ai aj t) <= length_of p (trans t) + length_of p (fun i => at_pos ai i - at_pos aj i).
Proof.
  destruct t as [[m n] o]. rewrite !length_nrm. rewrite <- (nrm_opp g (trans (m, n, o)) (fun i => - trans (m, n, o) i)) by auto.
  apply (nrm_tri g g_sym g_psd). intros i Hi. destruct i as [|[|[|i]]]; try lia; cbn; ring.
Qed.

(** the points found *)
Lemma sphere_found rmin rmax : exists f0 L, (forall f, (f0 <= f)%nat -> points_in_sphere f rmin rmax (lp_make (A 0%nat) (A 1%nat) (A 2%nat) (cp_win p 0%nat) (cp_win p 1%nat) (cp_win p 2%nat)) = Ok L) /\
  NoDup L /\ (forall t, rmin <= length_of p (trans t) < rmax -> In t L) /\ forall t, In t L -> length_of p (trans t) < rmax.
Proof.
  destruct (sphere_points _ _ _ _ _ _ rmin rmax block_proper) as (f0 & L & F & N & S & C & _). exists f0, L. split; auto. split; auto. split.
  intros [[m n] o] H. apply C. rewrite block_dist. auto.
  intros [[m n] o] H. rewrite <- block_dist. apply S; auto.
Qed.
End Phase.
