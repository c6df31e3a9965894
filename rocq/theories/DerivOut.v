(** The columns and the numbers the program itself calculates. *)
From Coq Require Import List Arith ZArith Reals Bool Lia Lra.
From Verif Require Import Base RSum MathModel ParserDeriv MathProof MetricModel MetricSpec MetricProof SphereModel PdfModel PdfSpec PdfProof PdfGeo PdfSum PdfPeak PdfPhase PdfTotal PdfFinal LayoutModel LayoutSpec LayoutProof DerivModel DerivSpec DerivRow DerivPair DerivCalc DerivPeak DerivGeo DerivSetup DerivPhase DerivOps DerivOne DerivSets DerivFinal.
Import ListNotations.
Local Open Scope R_scope.

(** *** the cutoff and derivatives *)
Lemma nth_zloop (V : Z -> R) lo hi j : (j < Z.to_nat (hi - lo + 1))%nat -> nth j (map V (from_to lo hi)) 0 = V (lo + Z.of_nat j)%Z.
Proof.
  intros H. unfold from_to. rewrite map_map. rewrite (nth_indep _ 0 (V (lo + Z.of_nat 0)%Z)) by (rewrite map_length, seq_length; auto).
  rewrite (map_nth (fun k => V (lo + Z.of_nat k)%Z)). rewrite seq_nth by auto. reflexivity.
Qed.
Lemma from_to_len lo hi : length (from_to lo hi) = Z.to_nat (hi - lo + 1). Proof. unfold from_to. rewrite map_length, seq_length. auto. Qed.
Theorem cutoff_derivative d lo hi (V : R -> Z -> R) D (T : R -> list num) TD x0 eps : 0 < eps -> (0 <= lo)%Z ->
  (forall x, Rabs (x - x0) < eps -> holds_pdf d lo hi (V x) (T x)) -> holds_pdf d lo hi D TD ->
  (forall g, (lo <= g <= hi)%Z -> derivable_pt_lim (fun x => V x g) x0 (D g)) ->
  forall g, (0 <= g <= hi)%Z -> exists y, el TD g = Some y /\ derivable_pt_lim (fun x => real_of (el (T x) g)) x0 y.
Proof.
  intros EP L0 HT (LD & ZD & ND & CD) DV g Hg. destruct (Z.lt_ge_cases g lo) as [LT|GE].
  - exists 0. split. apply ZD; lia. apply dl_local with (eps0 := eps) (f := fun _ => 0); auto.
    + intros y Hy. destruct (HT y Hy) as (_ & Z0 & _). rewrite Z0 by lia. reflexivity.
    + apply dlim_const.
  - destruct (Rlt_dec 0 (cd_qmax d)) as [Q|Q].
    + destruct (CD Q) as (out & (P & PA & LO & X) & EO). rewrite map_length, from_to_len in *. assert (GM : (Z.to_nat (g - lo) < Z.to_nat (hi - lo + 1))%nat) by lia.
      exists (nth (Z.to_nat (g - lo)) out 0). split. apply EO; lia.
      set (n := Z.to_nat (hi - lo + 1)) in *. set (m := Z.to_nat (g - lo)) in *.
      apply dl_local with (eps0 := eps) (f := fun x => fil (cd_qmax d) (cd_deltar d) P n (fun j => V x (lo + Z.of_nat j)%Z) m); auto.
      * intros y Hy. destruct (HT y Hy) as (_ & _ & _ & CT). destruct (CT Q) as (o & (P' & PA' & LO' & X') & EO'). rewrite map_length, from_to_len in *. fold n in PA', X'.
        rewrite (pad_unique n P' P PA' PA) in *. rewrite EO' by lia. cbn [real_of]. fold m. rewrite X' by auto. unfold fil. f_equal. apply rsum_ext. intros j Hj. rewrite nth_zloop by auto. reflexivity.
      * rewrite X by auto. unfold fil. apply dcm.
        pose (c := fun j => rsum P (fun k => (if kept_dec (cd_qmax d) (cd_deltar d) P k then 1 else 0) * cos (2 * PI * INR k * (INR m - INR j) / INR P))).
        apply (drsum n (fun j x => V x (lo + Z.of_nat j)%Z * c j) (fun j => nth j (map D (from_to lo hi)) 0 * c j)). intros j Hj. rewrite nth_zloop by auto. apply dmc. apply DV. unfold n in Hj. lia.
    + assert (Q' : cd_qmax d <= 0) by lra. exists (D g). split. apply ND; auto; lia. apply dl_local with (eps0 := eps) (f := fun x => V x g). exact EP.
      intros y Hy. destruct (HT y Hy) as (_ & _ & NT & _). rewrite NT by (solve [exact Q' | lia]). reflexivity.
      exact (DV g ltac:(lia)).
Qed.

(** *** variables that leave the peaks alone *)
Lemma lat_occ p p' de : cp_a0 p' = cp_a0 p -> cp_win p' = cp_win p -> phase_lattice p = Ok de -> exists de', phase_lattice p' = Ok de' /\ de_lat de' = de_lat de.
Proof.
  unfold phase_lattice. intros -> ->. destruct (lattice (cp_a0 p) (cp_win p)) as [l| | |]; try discriminate. cbn [obind]. intros E. injection E as <-. eexists. split. reflexivity. reflexivity.
Qed.
Lemma occ_sane d p ia : sane_phase d p -> (ia < natoms p)%nat -> exists eps, 0 < eps /\ forall y, Rabs (y - at_occ (atom_no p ia)) < eps -> sane_phase d (set_phase_atom ia FOcc y p).
Proof.
  intros SP IA. set (o := at_occ (atom_no p ia)). set (n := natoms p) in *. set (q := fun y => set_phase_atom ia FOcc y p). set (ty := cd_type d).
  set (sf := fun i => at_sf (atom_no p i) ty). set (F0 := rsum n (fun i => at_occ (atom_no p i) * sf i)). set (np := occ_sum p).
  assert (OC : forall y i, at_occ (atom_no (q y) i) = at_occ (atom_no p i) + hit i ia * (y - o)).
  { intros y i. unfold q. rewrite atom_set by auto. unfold hit. rewrite (Nat.eqb_sym i ia). destruct (Nat.eqb_spec ia i) as [<-|]. cbn [set_atom_field at_occ]. fold o. ring. ring. }
  assert (SF : forall y i, at_sf (atom_no (q y) i) ty = sf i). { intros y i. unfold q. rewrite atom_set by auto. destruct (ia =? i)%nat; reflexivity. }
  assert (NA : forall y, natoms (q y) = n) by (intros y; apply natoms_set).
  assert (H1 : forall f : nat -> R, rsum n (fun i => f i * hit i ia) = f ia).
  { intros f. rewrite (rsum_single n _ ia); auto. unfold hit. rewrite Nat.eqb_refl. ring. intros i _ Ne. unfold hit. destruct (Nat.eqb_spec i ia). contradiction. ring. }
  assert (NN : forall y, occ_sum (q y) = np + (y - o)).
  { intros y. unfold occ_sum. rewrite NA. rewrite (rsum_ext n _ (fun i => at_occ (atom_no p i) + (y - o) * hit i ia)) by (intros; rewrite OC; ring). rewrite rsum_plus. rewrite (H1 (fun _ => y - o)). reflexivity. }
  assert (FF : forall y, rsum (natoms (q y)) (fun i => at_occ (atom_no (q y) i) * at_sf (atom_no (q y) i) ty) = F0 + sf ia * (y - o)).
  { intros y. rewrite NA. rewrite (rsum_ext n _ (fun i => at_occ (atom_no p i) * sf i + (sf i * (y - o)) * hit i ia)) by (intros; rewrite OC, SF; ring). rewrite rsum_plus. rewrite (H1 (fun i => sf i * (y - o))). reflexivity. }
  pose proof SP as (PC & TN & IC & NZ & MZ & SZ & MS & SR). fold np in NZ.
  assert (F0Z : F0 <> 0). { intros Z. apply MZ. unfold mean_sf. fold n ty np. change (F0 / np = 0). rewrite Z. field. exact NZ. }
  set (eps := Rmin (Rabs np) (Rabs F0 / (1 + Rabs (sf ia)))).
  assert (EP : 0 < eps). { unfold eps. apply Rmin_pos. apply Rabs_pos_lt; auto. apply Rdiv_lt_0_compat. apply Rabs_pos_lt; auto. pose proof (Rabs_pos (sf ia)). lra. }
  exists eps. split; auto. intros y Hy.
  assert (NE : np + (y - o) <> 0 /\ F0 + sf ia * (y - o) <> 0).
  { split; intros Z.
    - assert (Rabs (y - o) = Rabs np). { replace (y - o) with (- np) by lra. apply Rabs_Ropp. } pose proof (Rmin_l (Rabs np) (Rabs F0 / (1 + Rabs (sf ia)))). fold eps in H0. lra.
    - assert (E1 : Rabs (sf ia) * Rabs (y - o) = Rabs F0). { rewrite <- Rabs_mult. replace (sf ia * (y - o)) with (- F0) by lra. apply Rabs_Ropp. }
      pose proof (Rmin_r (Rabs np) (Rabs F0 / (1 + Rabs (sf ia)))) as B. fold eps in B. pose proof (Rabs_pos (sf ia)) as SA. pose proof (Rabs_pos (y - o)) as YA.
      assert (Rabs (y - o) < Rabs F0 / (1 + Rabs (sf ia))) as L by lra. apply (Rmult_lt_compat_r (1 + Rabs (sf ia))) in L; [|lra].
      replace (Rabs F0 / (1 + Rabs (sf ia)) * (1 + Rabs (sf ia))) with (Rabs F0) in L by (field; lra). nra. }
  destruct NE as [N1 N2]. fold (q y). split. exact PC. split. exact TN. split. exact IC. split. rewrite NN. exact N1. split.
  { unfold mean_sf. fold ty. rewrite FF, NN. unfold Rdiv. apply Rmult_integral_contrapositive_currified; auto. apply Rinv_neq_0_compat; auto. }
  split. { rewrite NA. fold ty. rewrite (rsum_ext n _ sf) by (intros; apply SF). exact SZ. }
  split. { intros i j h Hi Hj. rewrite NA in Hi, Hj. assert (AU : forall i, at_u (atom_no (q y) i) = at_u (atom_no p i)). { intros k. unfold q. rewrite atom_set by auto. destruct (ia =? k)%nat; reflexivity. }
    pose proof (MS i j h Hi Hj) as M. unfold msd in M |- *. rewrite !AU. exact M. }
  exact SR.
Qed.

Definition ia_ok (v : rvar) (ip : nat) (p : cphase) : Prop := of_phase v ip = true -> match v with AV _ ia _ => (ia < natoms p)%nat | _ => True end.
Section Out.
Variables (d : cdata) (is : nat) (v : rvar).
Hypothesis PF : peaks_fixed v.
Lemma same_place ip p y i : ia_ok v ip p ->
  at_pos (atom_no (chg v ip y p) i) = at_pos (atom_no p i) /\ at_u (atom_no (chg v ip y p) i) = at_u (atom_no p i).
Proof.
  intros IA. unfold ia_ok in IA. unfold chg. destruct (of_phase v ip); auto. specialize (IA eq_refl). destruct v as [k f|k ia f|k f]; cbn [change]; auto.
  - destruct f; auto.
  - rewrite !atom_set by auto. destruct (ia =? i)%nat; auto. destruct f; destruct PF. auto.
Qed.
Lemma same_rest ip p y : let q := chg v ip y p in cp_a0 q = cp_a0 p /\ cp_win q = cp_win p /\ cp_icc q = cp_icc p /\ cp_delta2 q = cp_delta2 p /\ cp_delta1 q = cp_delta1 p /\
  cp_stepcut q = cp_stepcut p /\ cp_sratio q = cp_sratio p /\ cp_rcut q = cp_rcut p /\ natoms q = natoms p.
Proof.
  cbv zeta. unfold chg. destruct (of_phase v ip); [|repeat split; auto]. destruct v as [k f|k ia f|k f]; cbn [change]; [| |repeat split; auto].
  - destruct f; destruct PF; repeat split.
  - repeat split. apply natoms_set.
Qed.
Lemma same_data y : let d' := data_with is v y d in cd_rmin d' = cd_rmin d /\ cd_rfmin d' = cd_rfmin d /\ cd_rfmax d' = cd_rfmax d /\ cd_deltar d' = cd_deltar d /\ cd_qmax d' = cd_qmax d /\ cd_qbroad d' = cd_qbroad d.
Proof. cbv zeta. destruct v as [k f|k ia f|k f]; cbn [data_with]; [repeat split; auto|repeat split; auto|]. destruct (k =? is)%nat; [|repeat split; auto]. destruct f; destruct PF; repeat split. Qed.
Lemma same_calc y : calc_lo (data_with is v y d) = calc_lo d /\ calc_hi (data_with is v y d) = calc_hi d.
Proof. destruct (same_data y) as (A & B & C & D & E & F). unfold calc_lo, calc_hi. rewrite A, B, C, E. auto. Qed.
Lemma same_length ip p y i j t : ia_ok v ip p ->
  sep (chg v ip y p) (atom_no (chg v ip y p) i) (atom_no (chg v ip y p) j) t = sep p (atom_no p i) (atom_no p j) t /\ forall h, length_of (chg v ip y p) h = length_of p h.
Proof.
  intros IA. destruct (same_rest ip p y) as (A0 & WI & IC & _). split.
  - destruct t as [[a b] c]. unfold sep. destruct (same_place ip p y i IA) as [-> _]. destruct (same_place ip p y j IA) as [-> _]. rewrite IC. reflexivity.
  - intros h. unfold length_of. rewrite A0, WI. reflexivity.
Qed.
Lemma same_contrib ip p y i j t g : ia_ok v ip p ->
  contributes (data_with is v y d) (chg v ip y p) (atom_no (chg v ip y p) i) (atom_no (chg v ip y p) j) t g <-> contributes d p (atom_no p i) (atom_no p j) t g.
Proof.
  intros IA. destruct (same_length ip p y i j t IA) as [SE LE]. destruct (same_rest ip p y) as (A0 & WI & IC & D2 & D1 & SC & SR & RC & _). destruct (same_data y) as (A & B & C & D & E & F).
  destruct (same_calc y) as [CL CH]. destruct (same_place ip p y i IA) as [_ UI]. destruct (same_place ip p y j IA) as [_ UJ].
  assert (M : forall h, msd (chg v ip y p) (atom_no (chg v ip y p) i) (atom_no (chg v ip y p) j) h = msd p (atom_no p i) (atom_no p j) h). { intros h. unfold msd. rewrite LE, A0, WI, UI, UJ. reflexivity. }
  assert (WF : forall r, width_factor (data_with is v y d) (chg v ip y p) r = width_factor d p r). { intros r. unfold width_factor. rewrite D2, D1, F. reflexivity. }
  assert (WW : forall h, width (data_with is v y d) (chg v ip y p) (atom_no (chg v ip y p) i) (atom_no (chg v ip y p) j) h = width d p (atom_no p i) (atom_no p j) h). { intros h. unfold width. rewrite M, LE, WF, RC, SR. reflexivity. }
  unfold contributes. cbv zeta. rewrite SE, M, LE, WF, WW. unfold reaches, grid. rewrite CL, CH, SC, A, D. tauto.
Qed.
Lemma reach_same y r : in_reach (data_with is v y d) r <-> in_reach d r.
Proof. destruct (same_calc y) as [CL CH]. unfold in_reach. rewrite CL, CH. tauto. Qed.
Lemma reach_if {B} y r (a b : B) : (if in_reach_dec (data_with is v y d) r then a else b) = if in_reach_dec d r then a else b.
Proof. pose proof (reach_same y r). destruct (in_reach_dec _ r), (in_reach_dec d r); tauto. Qed.
Lemma same_pairs ip e de y pt : ia_ok v ip (en_ph e) ->
  pair_W (data_with is v y d) (mkEnt (chg v ip y (en_ph e)) de (en_igni e) (en_ignj e)) pt = pair_W d e pt.
Proof.
  intros IA. destruct (same_rest ip (en_ph e) y) as (_ & _ & _ & _ & _ & _ & _ & _ & NA). unfold pair_W. cbn [en_ph]. rewrite NA. apply flat_map_ext. intros [i j]. unfold pair_block. cbn [en_igni en_ignj en_ph].
  destruct (counted _ _ i j); auto. apply flat_map_ext. intros t. destruct (same_length ip (en_ph e) y i j t IA) as [SE LE]. rewrite SE, LE. apply reach_if.
Qed.
Lemma same_cof ip p y x g : ia_ok v ip p -> Cof (data_with is v y d) (chg v ip y p) x g = Cof d p x g.
Proof.
  intros IA. destruct x as [[i j] t]. unfold Cof. pose proof (same_contrib ip p y i j t g IA). destruct (contributes_dec _ _ _ _ _ _), (contributes_dec d p _ _ _ _); tauto.
Qed.
Lemma nil_len {B} (l l' : list B) (a b : R) : length l' = length l -> match l' with [] => a | _ => b end = match l with [] => a | _ => b end.
Proof. destruct l, l'; simpl; auto; discriminate. Qed.
Lemma same_sphere ip e de y : ia_ok v ip (en_ph e) -> de_lat de = de_lat (en_der e) ->
  let e' := mkEnt (chg v ip y (en_ph e)) de (en_igni e) (en_ignj e) in sph_lo (data_with is v y d) e' = sph_lo d e /\ sph_hi (data_with is v y d) e' = sph_hi d e.
Proof.
  intros IA DL. cbv zeta. destruct (same_rest ip (en_ph e) y) as (_ & _ & _ & _ & _ & SC & _ & _ & NA). destruct (same_calc y) as [CL CH].
  assert (CD : circum_diameter (de_lat de) (cp_atoms (chg v ip y (en_ph e))) = circum_diameter (de_lat (en_der e)) (cp_atoms (en_ph e))). { rewrite DL. unfold circum_diameter. apply nil_len. exact NA. }
  unfold sph_lo, sph_hi. cbn [en_ph en_der]. rewrite CD, CL, CH, SC. auto.
Qed.

Section Psel.
Variables (psel : list (option centry)) (natoms : list nat) (pts : nat -> list (Z * Z * Z)).
Hypothesis G : good_grid d.
Hypothesis O : off_origin d.
Hypothesis GF : good_filter d.
Hypothesis CF : counts_fit psel natoms.
Hypothesis AR : forall ip e, nth_error psel ip = Some (Some e) -> up_to_date e /\ sane_phase d (en_ph e).
Hypothesis IA : forall ip e, nth_error psel ip = Some (Some e) -> ia_ok v ip (en_ph e).
Lemma refresh_nth l k : nth_error (refresh l) k = option_map (option_map (fun e => mkEnt (en_ph e) (match phase_lattice (en_ph e) with Ok de => de | _ => en_der e end) (en_igni e) (en_ignj e))) (nth_error l k).
Proof. apply nth_error_map. Qed.
Lemma phases_nth_error y k : nth_error (phases_with v y psel) k = option_map (option_map (fun e => mkEnt (chg v k y (en_ph e)) (en_der e) (en_igni e) (en_ignj e))) (nth_error psel k).
Proof.
  destruct (lt_dec k (length psel)) as [H|H].
  - pose proof (nth_error_nth' psel None H) as E. rewrite E. cbn [option_map]. rewrite <- phases_nth by auto. apply nth_error_nth'. rewrite phases_len. auto.
  - rewrite (proj2 (nth_error_None psel k)) by lia. apply nth_error_None. rewrite phases_len. lia.
Qed.
Definition now (y : R) : list (option centry) := refresh (phases_with v y psel).
Lemma now_nth y ip e' : nth_error (now y) ip = Some (Some e') -> exists e de, nth_error psel ip = Some (Some e) /\
  e' = mkEnt (chg v ip y (en_ph e)) de (en_igni e) (en_ignj e) /\ up_to_date e' /\ de_lat de = de_lat (en_der e).
Proof.
  unfold now. rewrite refresh_nth, phases_nth_error. destruct (nth_error psel ip) as [[e|]|] eqn:E; cbn [option_map]; try discriminate. intros H. injection H as <-.
  destruct (AR ip e E) as [U S]. destruct (same_rest ip (en_ph e) y) as (A0 & WI & _). destruct (lat_occ (en_ph e) (chg v ip y (en_ph e)) (en_der e) A0 WI U) as (de & LA & DL).
  exists e, de. cbn [en_ph en_der en_igni en_ignj]. rewrite LA. repeat split; auto.
Qed.
Lemma now_good y fuel nset (vref : list bool) (IS : (is < nset)%nat) : (forall x, In x (numbered 0 psel) -> good_entry natoms d pts fuel x) ->
  (forall ip e, nth_error psel ip = Some (Some e) -> sane_phase (data_with is v y d) (chg v ip y (en_ph e))) ->
  exists t, determine fuel (data_with is v y d) (now y) = Ok (idx d (cd_rfmin d), idx d (cd_rfmax d), t) /\
  holds_pdf d (idx d (calc_lo d)) (idx d (calc_hi d)) (fixed_pdf (data_with is v y d) (phases_with v y psel) (Wn d psel pts) (Cn d psel)) t.
Proof.
  intros GD SN. set (d' := data_with is v y d). destruct (same_data y) as (D1 & D2 & D3 & D4 & D5 & D6). destruct (same_calc y) as [CL CH]. fold d' in D1, D2, D3, D4, D5, D6, CL, CH.
  assert (ID : forall r, idx d' r = idx d r) by (intros r; unfold idx; rewrite D1, D4; reflexivity).
  assert (G' : good_grid d') by (unfold good_grid in *; rewrite D1, D2, D3, D4, CH; exact G).
  assert (O' : off_origin d') by (unfold off_origin in *; rewrite D1, D4, CL; exact O).
  assert (GF' : good_filter d') by (unfold good_filter in *; rewrite D4, D5, CL, CH; exact GF).
  assert (GD' : forall x, In x (numbered 0 (now y)) -> good_entry natoms d' pts fuel x).
  { intros [ip e'] I. apply in_l in I. destruct (now_nth y ip e' I) as (e & de & E & -> & U & DL). destruct (GD (ip, e)) as (_ & _ & N & P). apply in_l; auto.
    destruct (same_rest ip (en_ph e) y) as (A0 & WI & IC & _ & _ & _ & _ & _ & NA). destruct (same_sphere ip e de y (IA ip e E) DL) as [S1 S2].
    split; auto. split. apply (SN ip e E). cbn [en_ph]. split. rewrite NA. exact N. fold d' in S1, S2. rewrite S1, S2, A0, WI, IC. exact P. }
  destruct (determine_at natoms nset vref d' is G' O' GF' IS pts fuel (now y) GD') as (t & E & H). exists t. rewrite D2, D3, !ID in E. split; auto. rewrite CL, CH, !ID in H.
  assert (TE : forall g, total d' pts (numbered 0 (now y)) g = fixed_pdf d' (phases_with v y psel) (Wn d psel pts) (Cn d psel) g).
  { intros g. rewrite <- (total_pdf d' is (now y) pts g). unfold fixed_pdf. assert (NL : length (now y) = length psel) by (unfold now, refresh; rewrite map_length; apply phases_len).
    rewrite NL, phases_len. apply lsum_ext. intros ip I. apply in_seq in I. unfold phase_term.
    assert (NE : nth_error psel ip = Some (nth ip psel None)) by (apply nth_error_nth'; lia).
    pose proof (phases_nth_error y ip) as PN. rewrite NE in PN. cbn [option_map] in PN. rewrite (nth_error_nth _ _ None PN).
    assert (RN : nth_error (now y) ip = Some (option_map (fun e => mkEnt (en_ph e) (match phase_lattice (en_ph e) with Ok de => de | _ => en_der e end) (en_igni e) (en_ignj e)) (option_map (fun e => mkEnt (chg v ip y (en_ph e)) (en_der e) (en_igni e) (en_ignj e)) (nth ip psel None)))).
    { unfold now. rewrite refresh_nth, PN. reflexivity. }
    rewrite (nth_error_nth _ _ None RN). destruct (nth ip psel None) as [e|] eqn:EE; cbn [option_map] in *; auto.
    unfold Wn, Cn. rewrite RN, NE. cbn [en_ph en_igni en_ignj] in *. f_equal. unfold fixed_phase. cbn [en_ph en_igni en_ignj]. f_equal. f_equal. f_equal.
    pose proof (same_pairs ip e (match phase_lattice (chg v ip y (en_ph e)) with Ok de => de | _ => en_der e end) y (pts ip) (IA ip e NE)) as SPW. fold d' in SPW. cbn [en_der]. rewrite SPW. apply lsum_ext. intros x _.
    pose proof (same_cof ip (en_ph e) y x g (IA ip e NE)) as SC. fold d' in SC. rewrite SC. reflexivity. }
  destruct H as (H1 & H2 & H3 & H4). rewrite D4, D5 in H4. rewrite D5 in H3. split; auto. split; auto. split.
  - intros Q g Hg. rewrite (H3 Q g Hg). f_equal. apply TE.
  - intros Q. destruct (H4 Q) as (out & FI & X). exists out. split; auto. rewrite <- (map_ext _ _ TE). exact FI.
Qed.
Lemma near_sane x0 : value_is is v d psel x0 -> exists eps, 0 < eps /\ forall y, Rabs (y - x0) < eps -> forall ip e, nth_error psel ip = Some (Some e) -> sane_phase (data_with is v y d) (chg v ip y (en_ph e)).
Proof.
  intros VI.
  assert (TRIV : (forall y ip e, nth_error psel ip = Some (Some e) -> sane_phase (data_with is v y d) (chg v ip y (en_ph e))) -> exists eps, 0 < eps /\ forall y, Rabs (y - x0) < eps -> forall ip e, nth_error psel ip = Some (Some e) -> sane_phase (data_with is v y d) (chg v ip y (en_ph e))).
  { intros H. exists 1. split. lra. intros y _ ip e E. apply H. exact E. }
  destruct v as [k f|k ia f|k f].
  - apply TRIV. intros y ip e E. destruct (AR ip e E) as [_ S]. unfold chg. destruct (of_phase (PV k f) ip); [|exact S]. destruct f; destruct PF; exact S.
  - destruct f; destruct PF. destruct (nth_error psel k) as [[e|]|] eqn:E.
    + destruct (AR k e E) as [_ S]. pose proof (IA k e E) as I0. unfold ia_ok in I0. cbn [of_phase] in I0. rewrite Nat.eqb_refl in I0. specialize (I0 eq_refl).
      destruct (occ_sane d (en_ph e) ia S I0) as (eps & EP & H). exists eps. split; auto. intros y Hy ip e' E'. unfold chg. cbn [of_phase]. destruct (Nat.eqb_spec k ip) as [<-|NE].
      assert (e' = e) by congruence. subst e'. cbn [change data_with]. apply H. pose proof (VI e E) as XV. cbn [atom_value] in XV. rewrite <- XV. exact Hy.
      destruct (AR ip e' E'). auto.
    + apply TRIV. intros y ip e' E'. destruct (AR ip e' E') as [_ S]. unfold chg. cbn [of_phase]. destruct (Nat.eqb_spec k ip) as [<-|NE]; [congruence|exact S].
    + apply TRIV. intros y ip e' E'. destruct (AR ip e' E') as [_ S]. unfold chg. cbn [of_phase]. destruct (Nat.eqb_spec k ip) as [<-|NE]; [congruence|exact S].
  - apply TRIV. intros y ip e E. destruct (AR ip e E) as [_ S]. unfold chg. cbn [of_phase data_with]. destruct (k =? is)%nat; [|exact S]. destruct f; destruct PF; exact S.
Qed.
End Psel.
End Out.

Theorem outputs_derive d psel find natoms nset npar ly vref is :
  good_grid d -> off_origin d -> good_filter d -> (forall e, In e (selected_entries psel) -> up_to_date e /\ sane_phase d (en_ph e)) ->
  counts_fit psel natoms -> (is < nset)%nat -> fit_setup find natoms nset npar = Ok ly -> columns_fit find natoms nset vref ->
  exists hi f0, nearest d (calc_hi d) hi /\
  forall fuel, (f0 <= fuel)%nat ->
  exists A, determine_diff fuel d psel ly is vref = Ok A /\
  forall v c x0, exists_var natoms nset v -> find v = Some c -> peaks_fixed v -> claimed is d psel (fun _ => []) v -> value_is is v d psel x0 ->
  exists eps, 0 < eps /\ forall g, (0 <= g <= hi)%Z ->
  (forall x, Rabs (x - x0) < eps -> exists z, pdf_at fuel (data_with is v x d) (phases_with v x psel) g = Some z) /\
  exists y, el (column A c) g = Some y /\
  derivable_pt_lim (fun x => real_of (pdf_at fuel (data_with is v x d) (phases_with v x psel) g)) x0 y.
Proof.
  intros G O GF AR CF IS FS CO. destruct (columns_at d psel find natoms nset npar ly vref is G O GF AR CF IS FS CO) as (f0 & pts & RL & X).
  destruct (ranges_ok d G) as (_ & NH & _). exists (idx d (calc_hi d)), f0. split. exact NH.
  intros fuel Hf. destruct (X fuel Hf) as (GD & T & A & E & _ & H). exists A. split; auto.
  intros v c x0 V F PF CL VI.
  assert (CL' : claimed is d psel (Wn d psel pts) v). { destruct v as [k f|k ia f|k f]; destruct f; try destruct PF; exact CL. }
  assert (HA : forall g, (idx d (calc_lo d) <= g)%Z -> holds_at d is psel pts v g) by (intros g LO; apply (claimed_holds d psel natoms nset); auto).
  set (D := fun g => match leffect v (all_labs d is pts (numbered 0 psel) g) (Some 0) with Some x => x | None => 0 end).
  assert (HD : holds_pdf d (idx d (calc_lo d)) (idx d (calc_hi d)) D (column A c)). { apply (H v c); auto. intros g Hg. destruct (HA g) as (D' & _ & B). lia. unfold D. rewrite B. reflexivity. }
  assert (DV : forall g, (idx d (calc_lo d) <= g <= idx d (calc_hi d))%Z -> derivable_pt_lim (fun x => fixed_pdf (data_with is v x d) (phases_with v x psel) (Wn d psel pts) (Cn d psel) g) x0 (D g)).
  { intros g Hg. destruct (HA g) as (D' & Y & B). lia. unfold D. rewrite B. apply Y. exact VI. }
  assert (AR' : forall ip e, nth_error psel ip = Some (Some e) -> up_to_date e /\ sane_phase d (en_ph e)).
  { intros ip e Q. apply AR. rewrite <- (numbered_sel psel 0). apply in_map_iff. exists (ip, e). split; auto. apply in_l. exact Q. }
  assert (IA : forall ip e, nth_error psel ip = Some (Some e) -> ia_ok v ip (en_ph e)).
  { intros ip e Q OP. destruct v as [k f|k ia f|k f]; auto. cbn [of_phase] in OP. apply Nat.eqb_eq in OP. subst k. destruct V as (V1 & V2 & V3). apply CF in Q. apply nth_error_nth with (d := 0%nat) in Q. rewrite Q in V2. exact V2. }
  destruct (near_sane d is v PF psel AR' IA x0 VI) as (eps & EP & SN). exists eps. split; auto.
  pose proof (lo_hi d G) as LH.
  assert (HT : forall x, Rabs (x - x0) < eps -> exists t, determine fuel (data_with is v x d) (now v psel x) = Ok (idx d (cd_rfmin d), idx d (cd_rfmax d), t) /\
     holds_pdf d (idx d (calc_lo d)) (idx d (calc_hi d)) (fixed_pdf (data_with is v x d) (phases_with v x psel) (Wn d psel pts) (Cn d psel)) t).
  { intros x Hx. apply (now_good d is v PF psel natoms pts G O GF AR' IA x fuel nset vref IS GD (SN x Hx)). }
  assert (HP : forall x g, pdf_at fuel (data_with is v x d) (phases_with v x psel) g = el (match determine fuel (data_with is v x d) (now v psel x) with Ok (_, _, t) => t | _ => [] end) g).
  { intros x g. unfold pdf_at. fold (now v psel x). destruct (determine fuel (data_with is v x d) (now v psel x)) as [[[a b] t]| | |]; auto; unfold el; destruct (Z.to_nat g); reflexivity. }
  set (T' := fun x => match determine fuel (data_with is v x d) (now v psel x) with Ok (_, _, t) => t | _ => [] end).
  assert (HT' : forall x, Rabs (x - x0) < eps -> holds_pdf d (idx d (calc_lo d)) (idx d (calc_hi d)) (fixed_pdf (data_with is v x d) (phases_with v x psel) (Wn d psel pts) (Cn d psel)) (T' x)).
  { intros x Hx. destruct (HT x Hx) as (t & Et & Ht). unfold T'. rewrite Et. exact Ht. }
  intros g Hg. split.
  - intros x Hx. rewrite HP. fold (T' x). destruct (HT' x Hx) as (_ & Z0 & N0 & C0). destruct (Z.lt_ge_cases g (idx d (calc_lo d))) as [L|L]. exists 0. apply Z0; lia.
    destruct (Rlt_dec 0 (cd_qmax d)) as [Q|Q]. destruct (C0 Q) as (out & _ & EO). eexists. apply EO; lia. eexists. apply N0; try lia. lra.
  - destruct (cutoff_derivative d (idx d (calc_lo d)) (idx d (calc_hi d)) (fun x => fixed_pdf (data_with is v x d) (phases_with v x psel) (Wn d psel pts) (Cn d psel)) D T' (column A c) x0 eps EP (proj1 LH) HT' HD DV g Hg) as (y & Ey & DY). exists y. split; auto.
    eapply dlim_ext; [|exact DY]. intros x. cbv beta. rewrite HP. reflexivity.
Qed.
