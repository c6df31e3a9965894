(** A phase with one row of atoms in reach, for the cases where the derivatives are wrong. *)
From Coq Require Import List Arith ZArith Reals Bool Lia Lra Psatz Ascii Permutation.
From Verif Require Import Base RSum MathModel ParserDeriv MathProof MetricModel MetricSpec MetricProof SphereModel SphereSpec SphereProof PdfModel PdfSpec PdfProof PdfGeo PdfSum PdfPeak PdfPhase PdfFft PdfTotal PdfSafe PdfEx PdfFinal LayoutModel LayoutSpec LayoutProof DerivModel DerivSpec DerivRow DerivPair DerivCalc DerivPeak DerivGeo DerivSetup DerivPhase DerivOps DerivOne DerivSets DerivFinal.
Import ListNotations.
Local Open Scope R_scope.

(** ** the list of pairs is unique but for its order *)
Lemma lsum_perm {A} (f : A -> R) l l' : Permutation l l' -> lsum f l = lsum f l'.
Proof.
  induction 1. reflexivity. rewrite !lsum_cons, IHPermutation; auto. rewrite !lsum_cons; ring. congruence.
Qed.
Lemma limits_unique d psel W C W' C' : (forall e, In e (selected_entries psel) -> one_cell (en_ph e) /\ cp_stepcut (en_ph e) <= 0) ->
  right_limits d psel W C -> right_limits d psel W' C' -> forall d' psel' g, (forall ip e', nth_error psel' ip = Some (Some e') -> exists e, nth_error psel ip = Some (Some e)) ->
  fixed_pdf d' psel' W C g = fixed_pdf d' psel' W' C' g.
Proof.
  intros OC R R' d' psel' g S. unfold fixed_pdf. apply lsum_ext. intros ip I. apply in_seq in I. unfold phase_term. destruct (nth ip psel' None) as [e'|] eqn:E; auto.
  assert (E' : nth_error psel' ip = Some (Some e')). { rewrite <- E. apply nth_error_nth'. lia. } destruct (S ip e' E') as (e & Ee).
  destruct (OC e) as [O1 O2]. { clear -Ee. revert ip Ee. induction psel as [|[a|] l IH]; intros [|ip] Ee; cbn in *; try discriminate. injection Ee as ->. left; auto. right. eapply IH; eauto. eapply IH; eauto. }
  destruct (R ip e Ee) as [(N1 & N2 & N3) C1]. destruct (R' ip e Ee) as [(N1' & N2' & N3') C1'].
  assert (B : forall r, below_stepcut (en_ph e) r) by (intros r H; lra).
  assert (P : Permutation (W ip) (W' ip)).
  { apply NoDup_Permutation; auto. intros [[i j] t]. split; intros H. apply N3'; auto. apply N3; auto. }
  f_equal. unfold fixed_phase. f_equal. f_equal. f_equal. rewrite (lsum_perm _ _ _ P). apply lsum_ext. intros [[i j] t] _.
  destruct (C ip (i, j, t) g) eqn:Q, (C' ip (i, j, t) g) eqn:Q'; auto; exfalso.
  apply C1 in Q. apply C1' in Q. congruence. apply C1' in Q'. apply C1 in Q'. congruence.
Qed.
Lemma phases_there v y psel ip e' : nth_error (phases_with v y psel) ip = Some (Some e') -> exists e, nth_error psel ip = Some (Some e).
Proof.
  intros H. assert (L : (ip < length psel)%nat). { rewrite <- (phases_len v y). apply nth_error_Some. congruence. }
  pose proof (nth_error_nth _ _ None H) as N. rewrite phases_nth in N by auto. destruct (nth ip psel None) as [e|] eqn:Q; [|discriminate]. exists e. rewrite <- Q. apply nth_error_nth'. auto.
Qed.

(** ** only v is refined *)
Lemma wrong_from v d psel natoms nset is g x0 D :
  good_grid d -> off_origin d -> good_filter d -> cd_qmax d <= 0 -> (forall e, In e (selected_entries psel) -> up_to_date e /\ sane_phase d (en_ph e)) ->
  (forall e, In e (selected_entries psel) -> one_cell (en_ph e) /\ cp_stepcut (en_ph e) <= 0) ->
  counts_fit psel natoms -> (is < nset)%nat -> exists_var natoms nset v -> (idx d (calc_lo d) <= g <= idx d (calc_hi d))%Z -> (0 <= g)%Z -> value_is is v d psel x0 ->
  (forall pts, right_limits d psel (Wn d psel pts) (Cn d psel) ->
     derivable_pt_lim (fun x => fixed_pdf (data_with is v x d) (phases_with v x psel) (Wn d psel pts) (Cn d psel) g) x0 (D pts) /\
     leffect v (all_labs d is pts (numbered 0 psel) g) (Some 0) <> Some (D pts)) ->
  column_wrong v d psel.
Proof.
  intros G O GF QM AR OC CF IS V Hg G0 VI H.
  set (find := fun w => if veqb v w then Some 0%nat else None).
  destruct (layout_ok find natoms nset (phase_size natoms + 3 * nset)) as [LO _]. destruct (LO eq_refl) as (ly & FS & _).
  assert (CO : columns_fit find natoms nset [true]).
  { split.
    - intros a b c _ _ A B. unfold find in A, B. destruct (veqb v a) eqn:Q1; [|discriminate]. destruct (veqb v b) eqn:Q2; [|discriminate]. apply veqb_eq in Q1, Q2. congruence.
    - intros a c _ A. unfold find in A. destruct (veqb v a); [|discriminate]. injection A as <-. reflexivity. }
  destruct (columns_at d psel find natoms nset _ ly [true] is G O GF AR CF IS FS CO) as (f0 & pts & RL & X).
  exists find, natoms, nset, (phase_size natoms + 3 * nset)%nat, ly, [true], is, 0%nat.
  repeat (split; [assumption|]). assert (FV : find v = Some 0%nat). { unfold find. assert (E : veqb v v = true) by (apply veqb_eq; auto). rewrite E. auto. } split; auto.
  exists (idx d (calc_lo d)), (idx d (calc_hi d)), (idx d (cd_rfmin d)), (idx d (cd_rfmax d)), f0. split. apply ranges_ok; auto.
  intros fuel Hf. destruct (X fuel Hf) as (_ & _ & A & E & RAW & _). exists A. split; auto. intros W C RW. destruct (H pts RL) as [H1 H2].
  exists g, x0, (D pts). split; auto. split; auto. split.
  - eapply dlim_ext; [|exact H1]. intros y. apply (limits_unique d psel _ _ _ _ OC RL RW). intros ip e'. apply phases_there.
  - rewrite (RAW QM v 0%nat g V FV) by lia. exact H2.
Qed.

(** ** a row of atoms 3 apart, the cell is wide across *)
Definition rowu (k : nat) : R := match k with 0%nat | 1%nat | 2%nat => 1 / 2 | 5%nat => 1 / 4 | _ => 0 end.
Definition rowat (o : R) : catom := mkAt (fun _ => 0) rowu o (fun _ => 1).
Definition row (ga ps : R) (os : list R) : cphase := mkCp (vec3 100 3 100) (vec3 90 90 ga) (fun _ => 1%Z) (map rowat os) 0 0 ps 0 0 1 0.
Definition rdata (qb : R) : cdata := mkCd 1 3 4 1 0 0 qb 1 "N"%char.
Section Row.
Variables (ga ps qb : R) (os : list R).
Let cg := cos (PI / 180 * ga).
Hypothesis HG : 0 < ga < 180.
Hypothesis HC : - (1 / 2) <= cg <= 0.
Hypothesis HT : cg = 0 \/ cg = - (1 / 2).
Let p := row ga ps os.
Let g := metric (cp_a0 p) (cp_win p).
Lemma row_metric : g 0%nat 0%nat = 10000 /\ g 1%nat 1%nat = 9 /\ g 2%nat 2%nat = 10000 /\ g 0%nat 1%nat = 300 * cg /\ g 1%nat 0%nat = 300 * cg /\
  g 0%nat 2%nat = 0 /\ g 2%nat 0%nat = 0 /\ g 1%nat 2%nat = 0 /\ g 2%nat 1%nat = 0.
Proof.
  unfold g, metric, cell_cos, cg. cbn [p row cp_a0 cp_win vec3 Nat.eqb Nat.add]. rewrite c90. repeat split; ring.
Qed.
Lemma row_cell : proper_cell (cp_a0 p 0%nat) (cp_a0 p 1%nat) (cp_a0 p 2%nat) (cp_win p 0%nat) (cp_win p 1%nat) (cp_win p 2%nat).
Proof. unfold proper_cell. cbn [p row cp_a0 cp_win vec3]. rewrite c90. fold cg. unfold gram. repeat split; try lra; try nra. Qed.
Lemma row_tiny : no_tiny g.
Proof.
  pose proof row_metric as (E0 & E1 & E2 & E3 & E4 & E5 & E6 & E7 & E8).
  assert (T : 300 * cg = 0 \/ double_eps <= Rabs (300 * cg)). { destruct HT as [-> | ->]. left; ring. right. rewrite Rabs_left by lra. unfold double_eps. lra. }
  intros i j Hi Hj N. destruct i as [|[|[|i]]], j as [|[|[|j]]]; try lia; rewrite ?E3, ?E4, ?E5, ?E6, ?E7, ?E8; auto.
Qed.
Lemma row_lat : exists de, phase_lattice p = Ok de.
Proof.
  unfold phase_lattice. rewrite lattice_spec. cbn [p row cp_a0 cp_win vec3]. rewrite cosd90. destruct (Rle_dec _ _) as [H|H]; [|eexists; reflexivity].
  exfalso. unfold gram, double_eps in H. change (m_cosd ga) with (cos (rad * ga)) in H. change rad with (PI / 180) in H. fold cg in H. nra.
Qed.
Definition rq (h : v3) : R := (100 * h 0%nat + 3 * cg * h 1%nat) * (100 * h 0%nat + 3 * cg * h 1%nat) + 9 * (1 - cg * cg) * (h 1%nat * h 1%nat) + 10000 * (h 2%nat * h 2%nat).
Lemma row_len h : length_of p h = sqrt (rq h).
Proof.
  pose proof row_metric as (E0 & E1 & E2 & E3 & E4 & E5 & E6 & E7 & E8). unfold length_of, dot33. fold g. rewrite E0, E1, E2, E3, E4, E5, E6, E7, E8. f_equal. unfold rq. ring.
Qed.
Lemma row_msd_nn i j h : 0 <= msd p (rowat i) (rowat j) h.
Proof.
  unfold msd. cbv zeta. cbn [rowat at_u rowu].
  match goal with |- 0 <= _ * (?a * ?a) + _ * (?b * ?b) + _ * (?c * ?c) + _ + _ + _ => generalize a b c end. intros x y z.
  replace (_ + _) with (x * x + 3 / 4 * (y * y) + (z + y / 2) * (z + y / 2)) by field.
  assert (SQ : forall w : R, 0 <= w * w) by (exact Rle_0_sqr). pose proof (SQ x). pose proof (SQ y). pose proof (SQ (z + y / 2)). lra.
Qed.
Lemma rq_nn h : 0 <= rq h. Proof.
  unfold rq. pose proof (Rle_0_sqr (100 * h 0%nat + 3 * cg * h 1%nat)) as A. pose proof (Rle_0_sqr (h 1%nat)) as B. pose proof (Rle_0_sqr (h 2%nat)) as C. unfold Rsqr in *.
  assert (0 <= 9 * (1 - cg * cg) * (h 1%nat * h 1%nat)) by (apply Rmult_le_pos; nra). lra.
Qed.
Definition steps (t : Z * Z * Z) : v3 := let '(m, n, o) := t in vec3 (- IZR m) (- IZR n) (- IZR o).
Lemma row_sep i j t k : sep p (rowat i) (rowat j) t k = steps t k.
Proof. destruct t as [[m n] o]. unfold sep, steps. cbn [rowat at_pos p row cp_icc]. unfold vec3. destruct k as [|[|k]]; ring. Qed.
Lemma row_sep_len i j t : length_of p (sep p (rowat i) (rowat j) t) = sqrt (rq (steps t)).
Proof. rewrite row_len. unfold rq. rewrite !row_sep. reflexivity. Qed.
Definition next (t : Z * Z * Z) : Prop := t = (0, 1, 0)%Z \/ t = (0, -1, 0)%Z.
Lemma rlo : calc_lo (rdata qb) = 3. Proof. unfold calc_lo. cbn. destruct (Rlt_dec 0 0); auto; lra. Qed.
Lemma rhi : calc_hi (rdata qb) = 4. Proof. unfold calc_hi. cbn. destruct (Rlt_dec 0 0); auto; lra. Qed.
Lemma rgrid : good_grid (rdata qb). Proof. unfold good_grid. rewrite rhi. cbn. lra. Qed.
Lemma roff : off_origin (rdata qb). Proof. left. cbn. lra. Qed.
Lemma rfilter : good_filter (rdata qb). Proof. intros H. cbn in H. lra. Qed.
Lemma ri3 : idx (rdata qb) (calc_lo (rdata qb)) = 2%Z.
Proof. rewrite rlo. apply near_eq; try apply rgrid; cbn; try lra. unfold nearest, grid; cbn; lra. Qed.
Lemma ri4 : idx (rdata qb) (calc_hi (rdata qb)) = 3%Z.
Proof. rewrite rhi. apply near_eq; try apply rgrid; cbn; try lra. unfold nearest, grid; cbn; lra. Qed.
Lemma rg2 : grid (rdata qb) 2 = 3. Proof. unfold grid; cbn; lra. Qed.

Lemma row_next t : in_reach (rdata qb) (sqrt (rq (steps t))) -> next t.
Proof.
  intros [_ [A B]]. rewrite rlo in A. rewrite rhi in B. pose proof (rq_nn (steps t)) as NN.
  assert (B2 : rq (steps t) <= 25). { replace 25 with (5 * 5) by ring. rewrite <- (sqrt_sqrt (rq (steps t))) by auto. pose proof (R_sqrt.sqrt_pos (rq (steps t))). nra. }
  assert (A2 : 4 <= rq (steps t)). { rewrite <- (sqrt_sqrt (rq (steps t))) by auto. nra. }
  destruct t as [[m n] o]. unfold rq, steps in *. cbn [vec3] in *. unfold vec3 in *.
  assert (SQ : forall x : R, 0 <= x * x) by (exact Rle_0_sqr).
  assert (M : forall k : Z, -2 < IZR k < 2 -> (k = -1 \/ k = 0 \/ k = 1)%Z). { intros k [K1 K2]. apply lt_IZR in K1, K2. lia. }
  pose proof (SQ (100 * - IZR m + 3 * cg * - IZR n)) as S0. pose proof (SQ (- IZR n)) as S1. pose proof (SQ (- IZR o)) as S2.
  assert (N1 : 27 / 4 * (- IZR n * - IZR n) <= 25) by nra.
  assert (NB : -2 < IZR n < 2) by nra.
  assert (O1 : 10000 * (- IZR o * - IZR o) <= 25) by nra. assert (OB : -1 < IZR o < 1) by nra. destruct OB as [OB1 OB2]. apply lt_IZR in OB1, OB2. assert (o = 0%Z) by lia. subst o.
  assert (X1 : (100 * - IZR m + 3 * cg * - IZR n) * (100 * - IZR m + 3 * cg * - IZR n) <= 25) by nra.
  assert (X2 : -5 <= 100 * - IZR m + 3 * cg * - IZR n <= 5) by nra.
  assert (MB : -1 < IZR m < 1). { assert (-3 <= 3 * cg * - IZR n <= 3) by nra. lra. } destruct MB as [M1 M2]. apply lt_IZR in M1, M2. assert (m = 0%Z) by lia. subst m.
  destruct (M n NB) as [->|[->| ->]]. right; auto. exfalso; lra. left; auto.
Qed.
Lemma next_len t : next t -> sqrt (rq (steps t)) = 3.
Proof.
  intros [-> | ->]; unfold rq, steps, vec3; (replace (_ + _) with (3 * 3) by ring); apply sqrt_square; lra.
Qed.
Hypothesis HO : os = [1] \/ os = [1; 0].
Lemma row_no i : (i < natoms p)%nat -> exists o, atom_no p i = rowat o.
Proof. unfold p, natoms, atom_no. destruct HO as [-> | ->]; cbn; intros H; destruct i as [|[|i]]; try lia; eexists; reflexivity. Qed.
Lemma row_occ : occ_sum p = 1.
Proof. unfold occ_sum, p. destruct HO as [-> | ->]; cbn; ring. Qed.
Lemma row_mean : mean_sf (rdata qb) p = 1.
Proof. unfold mean_sf. rewrite row_occ. unfold p. destruct HO as [-> | ->]; cbn; field. Qed.
Lemma row_weight i : (i < natoms p)%nat -> weight_no (rdata qb) p i = 1.
Proof. intros H. unfold weight_no. rewrite row_mean. destruct (row_no i H) as (o & ->). cbn. field. Qed.
Lemma row_sane : sane_phase (rdata qb) p.
Proof.
  split. apply row_cell. split. apply row_tiny. split. intros; cbn; lia. split. rewrite row_occ; lra. split. rewrite row_mean; lra.
  split. { unfold p. destruct HO as [-> | ->]; cbn; lra. } split; [|cbn; lra].
  intros i j h Hi Hj. destruct (row_no i Hi) as (o & ->). destruct (row_no j Hj) as (o' & ->). apply row_msd_nn.
Qed.
Lemma row_one : one_cell p.
Proof. intros i j k Hi Hj _. destruct (row_no i Hi) as (o & ->). destruct (row_no j Hj) as (o' & ->). cbn. replace (0 - 0) with 0 by ring. rewrite Rabs_R0. lra. Qed.
Lemma row_det : det33 g = 900000000 * (1 - cg * cg).
Proof. pose proof row_metric as (E0 & E1 & E2 & E3 & E4 & E5 & E6 & E7 & E8). unfold det33. rewrite E0, E1, E2, E3, E4, E5, E6, E7, E8. ring. Qed.
Lemma row_rm : rmetric (cp_a0 p) (cp_win p) 0 0 = 1 / (10000 * (1 - cg * cg)) /\ rmetric (cp_a0 p) (cp_win p) 1 1 = 1 / (9 * (1 - cg * cg)).
Proof.
  pose proof row_metric as (E0 & E1 & E2 & E3 & E4 & E5 & E6 & E7 & E8). unfold rmetric. cbv zeta. fold g. rewrite row_det. cbn [Nat.add Nat.modulo Nat.divmod fst snd Nat.sub].
  rewrite E0, E1, E2, E6, E7, E8, E5. assert (1 - cg * cg <> 0) by nra. split; field; auto.
Qed.
(** the displacement along the row; x is the element 11 of the sum of both tensors *)
Lemma row_msd_next ai aj t : (forall k, at_pos ai k = 0) -> (forall k, at_pos aj k = 0) -> next t -> at_u ai 3%nat + at_u aj 3%nat = 0 ->
  msd p ai aj (sep p ai aj t) = ((at_u ai 0%nat + at_u aj 0%nat) * (cg * cg) + (at_u ai 1%nat + at_u aj 1%nat)) / (1 - cg * cg).
Proof.
  intros PI_ PJ NX U3. pose proof row_metric as (E0 & E1 & E2 & E3 & E4 & E5 & E6 & E7 & E8). pose proof row_rm as [R0 R1].
  assert (SE : forall k, sep p ai aj t k = steps t k). { intros k. destruct t as [[m n] o]. unfold sep, steps. rewrite !PI_, !PJ. cbn [p row cp_icc]. unfold vec3. destruct k as [|[|k]]; ring. }
  assert (LN : length_of p (sep p ai aj t) = 3). { rewrite row_len. unfold rq. rewrite !SE. apply (next_len t NX). }
  assert (H0 : steps t 0%nat = 0) by (destruct NX as [-> | ->]; cbn; ring). assert (H2 : steps t 2%nat = 0) by (destruct NX as [-> | ->]; cbn; ring).
  assert (H1 : steps t 1%nat * steps t 1%nat = 1) by (destruct NX as [-> | ->]; cbn; ring).
  assert (NZ : 0 < 1 - cg * cg) by nra.
  unfold msd. cbv zeta. fold g. rewrite LN, !SE, H0, H2, E0, E1, E2, E3, E4, E5, E6, E7, E8, R0, R1.
  set (s0 := sqrt (1 / (10000 * (1 - cg * cg)))). set (s1 := sqrt (1 / (9 * (1 - cg * cg)))). set (s2 := sqrt _). set (y := steps t 1%nat) in *.
  assert (Q0 : s0 * s0 = 1 / (10000 * (1 - cg * cg))). { apply sqrt_sqrt. unfold Rdiv. rewrite Rmult_1_l. apply Rlt_le, Rinv_0_lt_compat. nra. }
  assert (Q1 : s1 * s1 = 1 / (9 * (1 - cg * cg))). { apply sqrt_sqrt. unfold Rdiv. rewrite Rmult_1_l. apply Rlt_le, Rinv_0_lt_compat. nra. }
  replace (_ + _) with ((at_u ai 0%nat + at_u aj 0%nat) * (s0 * s0 * (y * y) * 10000 * (cg * cg)) + (at_u ai 1%nat + at_u aj 1%nat) * (s1 * s1 * (y * y) * 9) + 2 * (at_u ai 3%nat + at_u aj 3%nat) * (s0 * s1 * 100 * cg * 3 * (y * y))) by field.
  rewrite Q0, Q1, H1, U3. field. lra.
Qed.
Lemma row_wf : width_factor (rdata qb) p 3 = 1 + 9 * (qb * qb).
Proof. unfold width_factor. cbn. field. Qed.
Lemma row_contrib i j t : (i < natoms p)%nat -> (j < natoms p)%nat -> next t -> contributes (rdata qb) p (atom_no p i) (atom_no p j) t 2.
Proof.
  intros Hi Hj NX. destruct (row_no i Hi) as (o & ->). destruct (row_no j Hj) as (o' & ->). unfold contributes. cbv zeta. rewrite row_sep_len, (next_len t NX), row_wf.
  split. { rewrite row_msd_next by (auto; cbn; lra). cbn. unfold Rdiv. apply Rmult_lt_0_compat. nra. apply Rinv_0_lt_compat. nra. }
  split. nra. unfold reaches. cbv zeta. rewrite rlo, rhi, rg2. cbn [rdata cd_deltar cd_rmin]. destruct (Rlt_dec 0 (cp_stepcut p)) as [Q|Q]; [cbn in Q; lra|].
  set (w := width _ _ _ _ _). assert (W0 : 0 <= w). { unfold w, width. cbv zeta. apply Rmult_le_pos. apply Rmult_le_pos; apply R_sqrt.sqrt_pos. destruct (Rlt_dec _ _); cbn; lra. }
  rewrite Rmax_left by lra. assert (3 <= Rmin 4 (3 + 5 * w)) by (apply Rmin_glb; lra). lra.
Qed.
(** the pairs of neighbours are there *)
Lemma row_pairs_there de pts : pair_list (rdata qb) (ent p de) (pair_W (rdata qb) (ent p de) pts) ->
  1 <= half_sum (rdata qb) (ent p de) pts 2 (fun _ => 1).
Proof.
  intros (ND & S & C). pose proof (W_half (rdata qb) (ent p de) pts 2 (fun _ => 1) (fun _ _ _ => eq_refl)) as WH. match type of WH with _ = ?b => change (1 <= b) end. rewrite <- WH. clear WH.
  assert (N0 : (0 < natoms p)%nat). { unfold p, natoms. destruct HO as [-> | ->]; cbn; lia. }
  assert (NX : next (0, 1, 0)%Z) by (left; auto).
  assert (I : In (0%nat, 0%nat, (0, 1, 0)%Z) (pair_W (rdata qb) (ent p de) pts)).
  { apply C. apply row_one. split; auto. split; auto. split; [reflexivity|]. cbn [ent en_ph]. destruct (row_no 0%nat N0) as (o & E). rewrite E, row_sep_len, (next_len _ NX). unfold in_reach. rewrite rlo, rhi. lra. intros H. cbn in H. lra. }
  eapply Rle_trans; [|apply (lsum_ge _ _ _ (0%nat, 0%nat, (0, 1, 0)%Z))]; auto.
  - cbn [ent en_ph]. unfold Cof. destruct (contributes_dec _ _ _ _ _ _) as [Y|Y]. lra. exfalso. apply Y. apply row_contrib; auto.
  - intros y _. destruct (Cof _ _ _ _); lra.
Qed.
Lemma row_next_of de i j t : (i < natoms p)%nat -> (j < natoms p)%nat -> in_reach (rdata qb) (pt_len (ent p de) i j t) -> next t.
Proof. intros Hi Hj. unfold pt_len. cbn [ent en_ph]. destruct (row_no i Hi) as (o & ->). destruct (row_no j Hj) as (o' & ->). rewrite row_sep_len. apply row_next. Qed.
Lemma row_pt_len de i j t : (i < natoms p)%nat -> (j < natoms p)%nat -> next t -> pt_len (ent p de) i j t = 3.
Proof. intros Hi Hj NX. unfold pt_len. cbn [ent en_ph]. destruct (row_no i Hi) as (o & ->). destruct (row_no j Hj) as (o' & ->). rewrite row_sep_len. apply (next_len t NX). Qed.
Definition row_m : R := (cg * cg + 1) / (1 - cg * cg).
Definition row_s : R := sqrt row_m * sqrt (1 + 9 * (qb * qb)) * 1.
Definition row_n : R := normal row_s (3 - 3).
Lemma row_m_pos : 0 < row_m. Proof. unfold row_m, Rdiv. apply Rmult_lt_0_compat. nra. apply Rinv_0_lt_compat. nra. Qed.
Lemma row_s_pos : 0 < row_s. Proof. unfold row_s. rewrite Rmult_1_r. apply Rmult_lt_0_compat; apply sqrt_lt_R0. apply row_m_pos. nra. Qed.
Lemma row_n_pos : 0 < row_n.
Proof. pose proof row_s_pos. unfold row_n, normal. apply Rmult_lt_0_compat; [|apply exp_pos]. apply Rinv_0_lt_compat. apply Rmult_lt_0_compat; auto. apply sqrt_lt_R0. pose proof PI_RGT_0; lra. Qed.
Lemma row_values i j t : (i < natoms p)%nat -> (j < natoms p)%nat -> next t -> let h := sep p (atom_no p i) (atom_no p j) t in
  length_of p h = 3 /\ msd p (atom_no p i) (atom_no p j) h = row_m /\ width (rdata qb) p (atom_no p i) (atom_no p j) h = row_s /\
  ph_now p 3 = 1 /\ pair_height (rdata qb) p (atom_no p i) (atom_no p j) t 2 = row_n.
Proof.
  intros Hi Hj NX h. unfold h. clear h. destruct (row_no i Hi) as (o & ->). destruct (row_no j Hj) as (o' & ->).
  assert (L : length_of p (sep p (rowat o) (rowat o') t) = 3) by (rewrite row_sep_len; apply (next_len t NX)).
  assert (M : msd p (rowat o) (rowat o') (sep p (rowat o) (rowat o') t) = row_m). { rewrite row_msd_next by (auto; cbn; lra). unfold row_m. cbn. f_equal. field. }
  assert (P : ph_now p 3 = 1). { unfold ph_now. destruct (Rlt_dec _ _) as [Q|Q]; auto. }
  assert (WI : width (rdata qb) p (rowat o) (rowat o') (sep p (rowat o) (rowat o') t) = row_s). { unfold width. cbv zeta. rewrite M, L, row_wf. change (if Rlt_dec 3 (cp_rcut p) then cp_sratio p else 1) with (ph_now p 3). rewrite P. reflexivity. }
  repeat split; auto. unfold pair_height. cbv zeta. rewrite WI, L, rg2. reflexivity.
Qed.
Lemma row_facp de : facp (rdata qb) (ent p de) 2 = ps.
Proof.
  unfold facp, shp, damp. cbn [ent en_ph rdata cd_dscale cd_qdamp p row cp_pscale cp_spd cp_stepcut]. destruct (Rle_dec 0 0); [|lra]. destruct (Rlt_dec 0 0); [lra|]. ring.
Qed.
Lemma row_base de i j : (i < natoms p)%nat -> (j < natoms p)%nat -> pbase (rdata qb) (ent p de) i j = at_occ (atom_no p i) * at_occ (atom_no p j).
Proof. intros Hi Hj. unfold pbase. cbn [ent en_ph]. rewrite !row_weight by auto. ring. Qed.
End Row.

(** ** a single phase *)
Lemma single_wrong v d e n g x0 D : good_grid d -> off_origin d -> good_filter d -> cd_qmax d <= 0 -> up_to_date e -> sane_phase d (en_ph e) -> one_cell (en_ph e) -> cp_stepcut (en_ph e) <= 0 ->
  n = natoms (en_ph e) -> exists_var [n] 1 v -> of_phase v 0 = true -> (idx d (calc_lo d) <= g <= idx d (calc_hi d))%Z -> (0 <= g)%Z -> value_is 0 v d [Some e] x0 ->
  (forall pts, pair_list d e (pair_W d e (pts 0%nat)) ->
     dl (term d 0 e pts g (fun y => data_with 0 v y d) (fun y => change v y (en_ph e))) x0 (D pts) /\
     leffect v (last_labs d pts (0%nat, e) g) (leffect v (phase_labs d 0 0 e (pts 0%nat) g) (Some 0)) <> Some (D pts)) ->
  column_wrong v d [Some e].
Proof.
  intros G O GF QM U S OC SC N V OF Hg G0 VI H.
  apply (wrong_from v d [Some e] [n] 1 0 g x0 D); auto.
  - intros e' [<-|[]]. auto.
  - intros e' [<-|[]]. auto.
  - intros [|ip] e' E; cbn in E. injection E as <-. cbn. rewrite N. reflexivity. destruct ip; discriminate.
  - intros pts RL. destruct (RL 0%nat e eq_refl) as [PL _]. destruct (H pts PL) as [H1 H2]. split.
    + apply dlim_ext with (f := term d 0 e pts g (fun y => data_with 0 v y d) (fun y => change v y (en_ph e))); [|exact H1].
      intros y. rewrite (pdf_terms d 0 [Some e] pts v y g). cbn [numbered]. rewrite lsum_cons, lsum_nil, Rplus_0_r. cbn [fst snd]. unfold term, chg. rewrite OF. reflexivity.
    + unfold all_labs, point_labs. destruct (Z.leb_spec (idx d (calc_lo d)) g); [|lia]. cbn [numbered flat_map fst snd]. rewrite !app_nil_r, !leffect_app.
      rewrite (set_labs_other 0 d _ _ _ v). exact H2. intros f E. subst v. discriminate OF.
Qed.

Lemma c120 : cos (PI / 180 * 120) = - (1 / 2).
Proof. replace (PI / 180 * 120) with (2 * (PI / 3)) by field. rewrite cos_2PI3. lra. Qed.
(** all pairs in reach have the same share *)
Lemma half_const d e pts g K c : (forall i j t, (i <= j < natoms (en_ph e))%nat -> in_reach d (pt_len e i j t) -> contributes d (en_ph e) (atom_no (en_ph e) i) (atom_no (en_ph e) j) t g -> K (i, j, t) = c) ->
  half_sum d e pts g K = c * half_sum d e pts g (fun _ => 1).
Proof. intros H. rewrite <- half_scal. apply half_ext. intros. rewrite H by auto. ring. Qed.

