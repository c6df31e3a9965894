(** Cubic cells with two atoms on the body diagonal, for the examples. *)
From Coq Require Import List Arith ZArith Reals Bool Lia Lra Psatz Ascii.
From Verif Require Import Base RSum MathModel MetricModel MetricSpec MetricProof SphereModel SphereSpec SphereProof PdfModel PdfSpec PdfProof PdfGeo PdfSum PdfPeak PdfPhase PdfFft PdfTotal PdfSafe.
Import ListNotations.
Local Open Scope R_scope.

(** atom at (x, x, x) with square displacement u in all directions *)
Definition xatom (x u occ : R) : catom := mkAt (fun _ => x) (fun k => if (k <? 3)%nat then u else 0) occ (fun _ => 1).
Definition cub (atoms : list catom) : cphase := mkCp (fun _ => 10) (fun _ => 90) (fun _ => 1%Z) atoms 0 0 1 0 0 1 0.
(** points at 1, 2, 3, ..., fitted from 3 to 4 *)
Definition xdata : cdata := mkCd 1 3 4 1 0 0 0 1 "N"%char.

Lemma c90 : cos (PI / 180 * 90) = 0.
Proof. replace (PI / 180 * 90) with (PI / 2) by field. apply cos_PI2. Qed.
Lemma cub_metric l i j : metric (cp_a0 (cub l)) (cp_win (cub l)) i j = if (i =? j)%nat then 100 else 0.
Proof. unfold metric, cell_cos. cbn [cub cp_a0 cp_win]. rewrite c90. destruct (i =? j)%nat; ring. Qed.
Lemma cub_cell l : proper_cell (cp_a0 (cub l) 0%nat) (cp_a0 (cub l) 1%nat) (cp_a0 (cub l) 2%nat) (cp_win (cub l) 0%nat) (cp_win (cub l) 1%nat) (cp_win (cub l) 2%nat).
Proof. exact (cubic_proper 10 ltac:(lra)). Qed.
Lemma cub_tiny l : no_tiny (metric (cp_a0 (cub l)) (cp_win (cub l))).
Proof. intros i j _ _ N. left. rewrite cub_metric. destruct (Nat.eqb_spec i j); auto. contradiction. Qed.
Lemma cub_lat l : exists de, phase_lattice (cub l) = Ok de.
Proof.
  unfold phase_lattice. rewrite lattice_spec. cbn [cub cp_a0 cp_win]. rewrite !cosd90. destruct (Rle_dec _ _) as [H|H].
  - exfalso. unfold gram, double_eps in H. lra.
  - eexists. reflexivity.
Qed.
Definition norm2 (h : v3) : R := h 0%nat * h 0%nat + h 1%nat * h 1%nat + h 2%nat * h 2%nat.
Lemma cub_len l h : length_of (cub l) h = 10 * sqrt (norm2 h).
Proof.
  unfold length_of, dot33. rewrite !cub_metric. cbn [Nat.eqb].
  replace (_ + _) with ((10 * 10) * norm2 h) by (unfold norm2; ring). rewrite sqrt_mult. rewrite sqrt_square; lra. lra. unfold norm2. nra.
Qed.
Lemma cub_det l : det33 (metric (cp_a0 (cub l)) (cp_win (cub l))) = 1000000.
Proof. unfold det33. rewrite !cub_metric. cbn [Nat.eqb]. ring. Qed.
Lemma cub_rm l k : (k < 3)%nat -> sqrt (rmetric (cp_a0 (cub l)) (cp_win (cub l)) k k) = 1 / 10.
Proof.
  intros K. assert (E : rmetric (cp_a0 (cub l)) (cp_win (cub l)) k k = 1 / 10 * (1 / 10)).
  { unfold rmetric. rewrite cub_det, !cub_metric. destruct k as [|[|[|k]]]; try lia; cbn [Nat.add Nat.modulo Nat.divmod Nat.eqb fst snd Nat.sub]; lra. }
  rewrite E. apply sqrt_square. lra.
Qed.
Lemma cub_msd l x y u v ox oy h : msd (cub l) (xatom x u ox) (xatom y v oy) h =
  (u + v) * (100 * norm2 h / (length_of (cub l) h * length_of (cub l) h)).
Proof.
  unfold msd. rewrite !cub_metric, !cub_rm by lia. cbn [xatom at_u Nat.ltb Nat.leb Nat.eqb]. set (L := length_of (cub l) h). unfold norm2, Rdiv. rewrite Rinv_mult. generalize (/ L). intros iL. field.
Qed.
Lemma cub_msd_pos l x y u v ox oy h : 0 < norm2 h -> msd (cub l) (xatom x u ox) (xatom y v oy) h = u + v.
Proof.
  intros H. rewrite cub_msd, cub_len. pose proof (sqrt_sqrt (norm2 h) ltac:(lra)) as S. replace (10 * sqrt (norm2 h) * (10 * sqrt (norm2 h))) with (100 * norm2 h) by (rewrite <- S at 1; ring). field. lra.
Qed.
Lemma norm2_nn h : 0 <= norm2 h. Proof. unfold norm2. nra. Qed.
Lemma cub_msd_nn l x y u v ox oy h : 0 <= u + v -> 0 <= msd (cub l) (xatom x u ox) (xatom y v oy) h.
Proof.
  intros H. destruct (Req_EM_T (norm2 h) 0) as [Z|Z]. rewrite cub_msd, Z. replace (100 * 0) with 0 by ring. unfold Rdiv. rewrite Rmult_0_l. lra.
  rewrite cub_msd_pos; auto. pose proof (norm2_nn h). lra.
Qed.

(** the data *)
Lemma xlo : calc_lo xdata = 3. Proof. unfold calc_lo. cbn. destruct (Rlt_dec 0 0); auto; lra. Qed.
Lemma xhi : calc_hi xdata = 4. Proof. unfold calc_hi. cbn. destruct (Rlt_dec 0 0); auto; lra. Qed.
Lemma xgrid : good_grid xdata.
Proof. unfold good_grid. rewrite xhi. cbn. lra. Qed.
Lemma xoff : off_origin xdata. Proof. left. cbn. lra. Qed.
Lemma xfilter : good_filter xdata. Proof. intros H. cbn in H. lra. Qed.
Lemma near_eq d r g : 0 < cd_deltar d -> cd_rmin d <= r -> good_grid d -> nearest d r g -> idx d r = g.
Proof.
  intros D R G H. pose proof (idx_nearest d G r R) as [A B]. destruct H as [A' B']. unfold grid in *.
  assert (IZR (idx d r) < IZR g + 1) by nra. assert (IZR g < IZR (idx d r) + 1) by nra.
  rewrite <- plus_IZR in *. apply lt_IZR in H, H0. lia.
Qed.
Lemma xi3 : idx xdata (calc_lo xdata) = 2%Z.
Proof. rewrite xlo. apply near_eq; try apply xgrid; cbn; try lra. unfold nearest, grid; cbn; lra. Qed.
Lemma xi4 : idx xdata (calc_hi xdata) = 3%Z.
Proof. rewrite xhi. apply near_eq; try apply xgrid; cbn; try lra. unfold nearest, grid; cbn; lra. Qed.

(** two atoms *)
Definition two (x y : R) : cphase := cub [xatom x (1 / 2) 1; xatom y (1 / 2) 1].
Lemma two_len x y h : length_of (two x y) h = 10 * sqrt (norm2 h). Proof. apply cub_len. Qed.
Lemma two_no x y i : atom_no (two x y) i = match i with O => xatom x (1 / 2) 1 | 1%nat => xatom y (1 / 2) 1 | _ => no_atom end.
Proof. destruct i as [|[|[|i]]]; reflexivity. Qed.
Lemma two_occ x y : occ_sum (two x y) = 2.
Proof. unfold occ_sum. cbn. lra. Qed.
Lemma two_mean x y : mean_sf xdata (two x y) = 1.
Proof. unfold mean_sf. rewrite two_occ. cbn. lra. Qed.
Lemma two_weight x y i : (i < 2)%nat -> weight_no xdata (two x y) i = 1.
Proof. intros H. unfold weight_no. rewrite two_mean, two_no. destruct i as [|[|i]]; try lia; cbn; lra. Qed.
Lemma two_sane x y : sane_phase xdata (two x y).
Proof.
  split. apply cub_cell. split. apply cub_tiny. split. intros; cbn; lia. split. rewrite two_occ; lra. split. rewrite two_mean; lra.
  split. cbn. lra. split; [|cbn; lra]. intros i j h Hi Hj. cbn in Hi, Hj. rewrite !two_no. destruct i as [|[|i]], j as [|[|j]]; try lia; apply cub_msd_nn; lra.
Qed.
Lemma two_one x y : Rabs (x - y) <= 1 -> one_cell (two x y).
Proof.
  intros H i j k Hi Hj _. cbn in Hi, Hj. rewrite !two_no.
  assert (Z : forall a : R, a - a = 0) by (intros; ring).
  destruct i as [|[|i]], j as [|[|j]]; try lia; cbn; rewrite ?Z, ?Rabs_R0; try lra. rewrite Rabs_minus_sym. auto.
Qed.

Definition none (_ : nat) : bool := false.
Definition ent (p : cphase) (de : cderived) : centry := mkEnt p de none none.

(** the value at r = 3 *)
Lemma two_value x y de : phase_lattice (two x y) = Ok de -> exists W s f0 t, pair_list xdata (ent (two x y) de) W /\ (forall i j t, In (i, j, t) W -> length_of (two x y) (trans (two x y) t) < sph_hi xdata (ent (two x y) de)) /\
  radial xdata (two x y) W 2 s /\ (forall fuel, (f0 <= fuel)%nat -> determine fuel xdata [Some (ent (two x y) de)] = Ok (2%Z, 3%Z, t)) /\
  el t 2 = Some (s / 6 - 12 * PI * density (two x y) * counted_share xdata (two x y) none none).
Proof.
  intros L. destruct (determine_ok xdata [Some (ent (two x y) de)] xgrid xoff xfilter) as (Ws & f0 & V & out & P & T & O1 & _ & LO & D).
  { intros e [<-|[]]. split. exact L. apply two_sane. }
  cbn [selected_entries] in P, T. inversion P as [|? W ? ? [P1 P2] P3]; subst. inversion P3; subst.
  rewrite xi3, xi4 in *.
  destruct (T 2%Z ltac:(lia)) as (v & z & (s & R & E) & Z & EV). cbn [total_is] in Z. subst z.
  exists W, s, f0, (repeat (Some 0) (Z.to_nat 2) ++ map Some out). split; auto. split. exact P2. split. exact R. split.
  - assert (I3 : idx xdata (cd_rfmin xdata) = 2%Z) by (change (cd_rfmin xdata) with 3; rewrite <- xlo; exact xi3). assert (I4 : idx xdata (cd_rfmax xdata) = 3%Z) by (change (cd_rfmax xdata) with 4; rewrite <- xhi; exact xi4). rewrite I3, I4 in D. auto.
  - rewrite O1 by (cbn; lra). change (zloop 2 3) with [2; 3]%Z. unfold el. change (Z.to_nat 2) with 2%nat. cbn [repeat app map nth]. f_equal. rewrite EV, E.
    cbn [ent en_ph en_igni en_ignj xdata cd_dscale]. rewrite two_occ.
    assert (GR : grid xdata 2 = 3) by (unfold grid; cbn; lra). fold xdata. rewrite GR.
    assert (EN : envelope xdata (two x y) 3 = 1). { unfold envelope. cbn. destruct (Rlt_dec 0 0); lra. } rewrite EN. cbn [two cub cp_pscale]. field.
Qed.

Lemma lsum_ge A (f : A -> R) l x : (forall y, In y l -> 0 <= f y) -> In x l -> f x <= lsum f l.
Proof.
  induction l as [|a l IH]; intros H I. destruct I. rewrite lsum_cons. pose proof (H a (or_introl eq_refl)).
  assert (0 <= lsum f l) by (apply lsum_nonneg; intros; apply H; right; auto).
  destruct I as [->|I]. lra. assert (f x <= lsum f l) by (apply IH; auto; intros; apply H; right; auto). lra.
Qed.

(** atoms at 0.9 and 0.1: the pair at 0.2*sqrt(3)*10 is there *)
Lemma pair_there W s de : phase_lattice (two (9 / 10) (1 / 10)) = Ok de -> pair_list xdata (ent (two (9 / 10) (1 / 10)) de) W -> radial xdata (two (9 / 10) (1 / 10)) W 2 s -> 0 < s.
Proof.
  intros L (ND & S & C) (f & F & ->). set (p := two (9 / 10) (1 / 10)) in *.
  assert (N2 : norm2 (sep p (atom_no p 0) (atom_no p 1) (1, 1, 1)%Z) = 12 / 100). { unfold norm2. cbn. lra. }
  assert (LN : length_of p (sep p (atom_no p 0) (atom_no p 1) (1, 1, 1)%Z) = 10 * sqrt (12 / 100)). { unfold p at 1. rewrite two_len, N2. reflexivity. }
  assert (SQ : 34 / 100 < sqrt (12 / 100) < 35 / 100).
  { split. rewrite <- (sqrt_square (34 / 100)) by lra. apply sqrt_lt_1_alt. lra. rewrite <- (sqrt_square (35 / 100)) by lra. apply sqrt_lt_1_alt. lra. }
  assert (I : In (0%nat, 1%nat, (1, 1, 1)%Z) W).
  { apply C. apply two_one. rewrite Rabs_right; lra. 
    - split; [cbn; lia|]. split; [cbn; lia|]. split; [reflexivity|]. change (en_ph (ent p de)) with p. rewrite LN. unfold in_reach. rewrite xlo, xhi. lra.
    - intros H. cbn in H. lra. }
  assert (NN : forall v, 0 <= normal 1 v). { intros v. unfold normal. apply Rmult_le_pos; [|apply Rlt_le, exp_pos]. apply Rlt_le, Rinv_0_lt_compat. rewrite Rmult_1_l. apply sqrt_lt_R0. pose proof PI_RGT_0; lra. }
  assert (WD : forall i j t, (i < 2)%nat -> (j < 2)%nat -> 0 < norm2 (sep p (atom_no p i) (atom_no p j) t) -> msd p (atom_no p i) (atom_no p j) (sep p (atom_no p i) (atom_no p j) t) = 1 /\ forall r, width_factor xdata p r = 1).
  { intros i j t Hi Hj H. split. unfold p in *. rewrite !two_no in *. destruct i as [|[|i]], j as [|[|j]]; try lia; unfold two; rewrite cub_msd_pos; auto; lra. intros r. unfold width_factor. cbn. unfold Rdiv. ring. }
  assert (WW : forall i j t, (i < 2)%nat -> (j < 2)%nat -> 0 < norm2 (sep p (atom_no p i) (atom_no p j) t) -> width xdata p (atom_no p i) (atom_no p j) (sep p (atom_no p i) (atom_no p j) t) = 1).
  { intros i j t Hi Hj H. destruct (WD i j t Hi Hj H) as [M Wf]. unfold width. rewrite M, Wf, sqrt_1. assert (0 <= length_of p (sep p (atom_no p i) (atom_no p j) t)) by apply length_nn. destruct (Rlt_dec _ (cp_rcut p)) as [Q|Q]; [|lra]. cbn in Q. cbn. lra. }
  assert (NP : forall i j t, is_pair xdata (ent p de) (i, j, t) -> (i < 2)%nat /\ (j < 2)%nat /\ 0 < norm2 (sep p (atom_no p i) (atom_no p j) t)).
  { intros i j t (Hi & Hj & _ & [R1 _]). cbn in Hi, Hj. split; [lia|]. split; [lia|]. cbn [ent en_ph] in R1. unfold p in R1 at 1. rewrite two_len in R1. pose proof (norm2_nn (sep p (atom_no p i) (atom_no p j) t)) as Z. destruct Z as [|Z]; auto. rewrite <- Z, sqrt_0 in R1. lra. }
  assert (V : forall x, In x W -> 0 <= f x).
  { intros [[i j] t] Hx. destruct (NP i j t (S _ Hx)) as (Hi & Hj & H0). destruct (F _ Hx) as [F1 F2].
    destruct (contributes_dec xdata p (atom_no p i) (atom_no p j) t 2) as [Y|Y]; [rewrite (F1 Y)|rewrite (F2 Y); lra].
    unfold p at 1 2 3 4 5 6. rewrite !two_weight by auto. unfold pair_height. cbv zeta. rewrite WW by auto.
    apply Rmult_le_pos; auto. rewrite !two_no. destruct i as [|[|i]], j as [|[|j]]; try lia; cbn; lra. }
  apply Rlt_le_trans with (f (0%nat, 1%nat, (1, 1, 1)%Z)); [|apply lsum_ge; auto].
  destruct (F _ I) as [F1 _]. rewrite F1.
  - unfold p at 1 2 3 4. rewrite !two_weight by lia. unfold pair_height. cbv zeta. rewrite WW by (try lia; rewrite N2; lra).
    apply Rmult_lt_0_compat. cbn; lra. unfold normal. apply Rmult_lt_0_compat; [|apply exp_pos]. apply Rinv_0_lt_compat. rewrite Rmult_1_l. apply sqrt_lt_R0. pose proof PI_RGT_0; lra.
  - destruct (WD 0%nat 1%nat (1, 1, 1)%Z) as [M Wf]; try lia. rewrite N2; lra. split. rewrite M; lra. split. rewrite Wf; lra.
    rewrite WW by (try lia; rewrite N2; lra). rewrite LN. unfold reaches. cbv zeta. rewrite xlo, xhi. assert (GR : grid xdata 2 = 3) by (unfold grid; cbn; lra). rewrite GR. cbn [cd_deltar cd_rmin xdata].
    destruct (Rlt_dec 0 (cp_stepcut p)) as [Q|Q]; [cbn in Q; lra|]. rewrite Rmax_left by lra. rewrite Rmin_left by lra. lra.
Qed.

(** atoms at 0.9 and -0.9: no pair is found *)
Lemma none_there W s de : phase_lattice (two (9 / 10) (- (9 / 10))) = Ok de -> pair_list xdata (ent (two (9 / 10) (- (9 / 10))) de) W ->
  (forall i j t, In (i, j, t) W -> length_of (two (9 / 10) (- (9 / 10))) (trans (two (9 / 10) (- (9 / 10))) t) < sph_hi xdata (ent (two (9 / 10) (- (9 / 10))) de)) ->
  radial xdata (two (9 / 10) (- (9 / 10))) W 2 s -> s = 0.
Proof.
  intros L (ND & S & _) B (f & F & ->). set (p := two (9 / 10) (- (9 / 10))) in *.
  assert (S3 : sqrt 3 < 2). { rewrite <- (sqrt_square 2) by lra. apply sqrt_lt_1_alt. lra. }
  assert (SH : sph_hi xdata (ent p de) < 30).
  { unfold sph_hi. cbn [ent en_ph en_der]. destruct (Rlt_dec 0 (cp_stepcut p)) as [Q|_]; [cbn in Q; lra|]. rewrite xhi.
    rewrite (circum_is p de L (cub_cell _) (cub_tiny _)) by discriminate.
    assert (DM : diag_max p = 10 * sqrt 3).
    { unfold diag_max, p. rewrite !two_len.
      assert (N1 : norm2 (vec3 1 1 1) = 3) by (unfold norm2; cbn; ring). assert (N2 : norm2 (vec3 (-1) 1 1) = 3) by (unfold norm2; cbn; ring).
      assert (N3 : norm2 (vec3 1 (-1) 1) = 3) by (unfold norm2; cbn; ring). assert (N4 : norm2 (vec3 1 1 (-1)) = 3) by (unfold norm2; cbn; ring). rewrite N1, N2, N3, N4.
      pose proof (R_sqrt.sqrt_pos 3). cbn [fold_left]. destruct (Rlt_dec (-1) (10 * sqrt 3)); [|lra]. set (w := 10 * sqrt 3) in *. assert (T : forall c : {w < w} + {~ w < w}, (if c then w else w) = w) by (intros []; auto). rewrite !T. reflexivity. }
    rewrite DM. pose proof (R_sqrt.sqrt_pos 3). assert (E1 : 0 < double_eps < 1 / 1000) by (split; [apply eps_pos|unfold double_eps; lra]). nra. }
  assert (W = []) as ->; [|reflexivity].
  destruct W as [|[[i j] t] W]; auto. exfalso.
  destruct (S _ (or_introl eq_refl)) as (Hi & Hj & _ & [R1 [_ R2]]). specialize (B i j t (or_introl eq_refl)). cbn [ent en_ph] in *. rewrite xhi in R2. cbn in Hi, Hj.
  assert (B2 : norm2 (trans p t) < 9).
  { unfold p in B at 1. rewrite two_len in B. assert (Q : sqrt (norm2 (trans p t)) < 3) by lra. rewrite <- (sqrt_square 3) in Q by lra. apply sqrt_lt_0_alt in Q. lra. }
  assert (C2 : norm2 (sep p (atom_no p i) (atom_no p j) t) <= 1 / 4).
  { unfold p in R2 at 1. rewrite two_len in R2. assert (Q : sqrt (norm2 (sep p (atom_no p i) (atom_no p j) t)) <= 1 / 2) by lra. rewrite <- (sqrt_square (1 / 2)) in Q by lra. apply sqrt_le_0 in Q; try lra. apply norm2_nn. }
  assert (C3 : 0 < norm2 (sep p (atom_no p i) (atom_no p j) t)).
  { unfold p in R1 at 1. rewrite two_len in R1. destruct (norm2_nn (sep p (atom_no p i) (atom_no p j) t)) as [|Z]; auto. rewrite <- Z, sqrt_0 in R1. lra. }
  destruct t as [[m n] o]. unfold norm2 in *. unfold p in B2, C2, C3. rewrite !two_no in C2, C3. unfold trans, sep in *. cbn [vec3 two cub cp_icc] in *. rewrite !Rmult_1_r in *.
  assert (K : forall q z : Z, (IZR q - IZR z) * (IZR q - IZR z) <= 1 / 4 -> q = z).
  { intros q z H. rewrite <- minus_IZR, <- mult_IZR in H. assert (((q - z) * (q - z) < 1)%Z). { apply lt_IZR. lra. } nia. }
  assert (SQ : forall a : R, 0 <= a * a) by (intros; nra).
  destruct i as [|[|i]], j as [|[|j]]; try lia; cbn [xatom at_pos] in *.
  - pose proof (SQ (9 / 10 - (9 / 10 + IZR m))). pose proof (SQ (9 / 10 - (9 / 10 + IZR n))). pose proof (SQ (9 / 10 - (9 / 10 + IZR o))).
    assert (m = 0%Z) by (apply K; nra). assert (n = 0%Z) by (apply K; nra). assert (o = 0%Z) by (apply K; nra). subst. lra.
  - pose proof (SQ (9 / 10 - (- (9 / 10) + IZR m))). pose proof (SQ (9 / 10 - (- (9 / 10) + IZR n))). pose proof (SQ (9 / 10 - (- (9 / 10) + IZR o))).
    assert (KK : forall q : Z, (9 / 10 - (- (9 / 10) + IZR q)) * (9 / 10 - (- (9 / 10) + IZR q)) <= 1 / 4 -> q = 2%Z).
    { intros q Hq. assert (13 / 10 <= IZR q <= 23 / 10) by nra. assert (1 < IZR q < 3) by lra. destruct H3. apply lt_IZR in H3, H4. lia. }
    assert (m = 2%Z) by (apply KK; lra). assert (n = 2%Z) by (apply KK; lra). assert (o = 2%Z) by (apply KK; lra). subst. lra.
  - pose proof (SQ (- (9 / 10) - (9 / 10 + IZR m))). pose proof (SQ (- (9 / 10) - (9 / 10 + IZR n))). pose proof (SQ (- (9 / 10) - (9 / 10 + IZR o))).
    assert (KK : forall q : Z, (- (9 / 10) - (9 / 10 + IZR q)) * (- (9 / 10) - (9 / 10 + IZR q)) <= 1 / 4 -> q = (-2)%Z).
    { intros q Hq. assert (- (23 / 10) <= IZR q <= - (13 / 10)) by nra. assert (-3 < IZR q < -1) by lra. destruct H3. apply lt_IZR in H3, H4. lia. }
    assert (m = (-2)%Z) by (apply KK; lra). assert (n = (-2)%Z) by (apply KK; lra). assert (o = (-2)%Z) by (apply KK; lra). subst. lra.
  - pose proof (SQ (- (9 / 10) - (- (9 / 10) + IZR m))). pose proof (SQ (- (9 / 10) - (- (9 / 10) + IZR n))). pose proof (SQ (- (9 / 10) - (- (9 / 10) + IZR o))).
    assert (m = 0%Z) by (apply K; nra). assert (n = 0%Z) by (apply K; nra). assert (o = 0%Z) by (apply K; nra). subst. lra.
Qed.

(** ** the same crystal, listed in two ways *)
Lemma translated_atom_differs : exists de de' f0 t t',
  phase_lattice (two (9 / 10) (1 / 10)) = Ok de /\ phase_lattice (two (9 / 10) (- (9 / 10))) = Ok de' /\
  (forall fuel, (f0 <= fuel)%nat -> determine fuel xdata [Some (ent (two (9 / 10) (1 / 10)) de)] = Ok (2%Z, 3%Z, t)) /\
  (forall fuel, (f0 <= fuel)%nat -> determine fuel xdata [Some (ent (two (9 / 10) (- (9 / 10))) de')] = Ok (2%Z, 3%Z, t')) /\
  el t 2 <> el t' 2.
Proof.
  destruct (cub_lat [xatom (9 / 10) (1 / 2) 1; xatom (1 / 10) (1 / 2) 1]) as (de & L). destruct (cub_lat [xatom (9 / 10) (1 / 2) 1; xatom (- (9 / 10)) (1 / 2) 1]) as (de' & L').
  destruct (two_value _ _ _ L) as (W & s & f0 & t & P & _ & R & D & E). destruct (two_value _ _ _ L') as (W' & s' & f0' & t' & P' & B' & R' & D' & E').
  exists de, de', (Nat.max f0 f0'), t, t'. split; auto. split; auto. split. intros; apply D; lia. split. intros; apply D'; lia.
  rewrite E, E'. assert (S : 0 < s) by (apply (pair_there W s de L P R)). assert (S' : s' = 0) by (apply (none_there W' s' de' L' P' B' R')). subst s'.
  assert (DE : density (two (9 / 10) (- (9 / 10))) = density (two (9 / 10) (1 / 10))). { unfold density. rewrite !two_occ. reflexivity. }
  assert (CE : counted_share xdata (two (9 / 10) (- (9 / 10))) none none = counted_share xdata (two (9 / 10) (1 / 10)) none none).
  { unfold counted_share. cbn [natoms two cub cp_atoms length rsum counted none negb andb orb]. fold (two (9 / 10) (1 / 10)). fold (two (9 / 10) (- (9 / 10))). rewrite !two_weight by lia. reflexivity. }
  rewrite DE, CE. intros X. inversion X. lra.
Qed.

(** ** a pair with a negative square displacement *)
Definition neg : cphase := cub [xatom (9 / 10) (-1) 1; xatom (1 / 10) (1 / 2) 1].
Lemma neg_spoils : exists de, cell_ok (ent neg de) /\ spoiler xdata (ent neg de).
Proof.
  destruct (cub_lat [xatom (9 / 10) (-1) 1; xatom (1 / 10) (1 / 2) 1]) as (de & L). exists de. split.
  { split. exact L. split. apply cub_cell. split. intros; cbn; lia. cbn. lra. }
  assert (N2 : norm2 (sep neg (atom_no neg 0) (atom_no neg 1) (1, 1, 1)%Z) = 12 / 100). { unfold norm2. cbn. lra. }
  assert (LN : length_of neg (sep neg (atom_no neg 0) (atom_no neg 1) (1, 1, 1)%Z) = 10 * sqrt (12 / 100)). { unfold neg at 1. rewrite cub_len, N2. reflexivity. }
  assert (SQ : 34 / 100 < sqrt (12 / 100) < 35 / 100).
  { split. rewrite <- (sqrt_square (34 / 100)) by lra. apply sqrt_lt_1_alt. lra. rewrite <- (sqrt_square (35 / 100)) by lra. apply sqrt_lt_1_alt. lra. }
  split.
  - exists (0%nat, 1%nat, (1, 1, 1)%Z). cbn [ent en_ph bad_pair]. split; [|split].
    + split; [cbn; lia|]. split; [cbn; lia|]. split; [reflexivity|]. cbn [ent en_ph]. rewrite LN. unfold in_reach. rewrite xlo, xhi. lra.
    + assert (M : msd neg (atom_no neg 0) (atom_no neg 1) (sep neg (atom_no neg 0) (atom_no neg 1) (1%Z, 1%Z, 1%Z)) = -1 + 1 / 2).
      { apply (cub_msd_pos [xatom (9 / 10) (-1) 1; xatom (1 / 10) (1 / 2) 1] (9 / 10) (1 / 10) (-1) (1 / 2) 1 1). rewrite N2. lra. }
      rewrite M. lra.
    + unfold width_factor. cbn. unfold Rdiv. rewrite !Rmult_0_l. lra.
  - split. apply cub_tiny. split. cbn; lra. intros i j k Hi Hj _. cbn in Hi, Hj.
    destruct i as [|[|i]], j as [|[|j]]; try lia; cbn; unfold Rabs; destruct (Rcase_abs _); lra.
Qed.

(** ** an empty site that is left out *)
Definition half_empty : cphase := cub [xatom 0 (1 / 2) 1; xatom (1 / 2) (1 / 2) 0].
Definition second (i : nat) : bool := (i =? 1)%nat.
Lemma empty_site_counts : counted_share xdata half_empty second second = 1 / 4.
Proof.
  assert (M : mean_sf xdata half_empty = 1). { unfold mean_sf, occ_sum. cbn. lra. }
  assert (W : forall i, (i < 2)%nat -> weight_no xdata half_empty i = 1). { intros i H. unfold weight_no. rewrite M. destruct i as [|[|i]]; try lia; cbn; lra. }
  unfold counted_share. change (natoms half_empty) with 2%nat. cbn [rsum counted second negb andb orb Nat.eqb]. rewrite !W by lia. lra.
Qed.

(** ** a frequency below Qmax that is cut *)
Lemma cut_below : ~ kept (7 * PI / 12) 1 4 1 /\ 2 * PI * 1 / (4 * 1) < 7 * PI / 12.
Proof.
  pose proof PI_RGT_0. split; [|lra]. unfold kept. simpl (4 - 1)%nat. simpl INR. intros [K|K].
  - replace (1 * (2 * PI / ((1 + 1 + 1) * 1))) with (2 * PI / 3) in K by field. lra.
  - replace ((1 + 1 + 1) * (2 * PI / ((1 + 1 + 1) * 1))) with (2 * PI) in K by field. lra.
Qed.
