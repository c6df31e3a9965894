(** Proofs: what the scattering factors do to the calculated PDF. *)
From Coq Require Import Ascii List Arith ZArith Reals Bool Lia Lra.
From Verif Require Import Base Util RSum SphereProof ParserModel MetricModel MetricProof PdfModel ElementTable ScatModel ScatSpec PdfSpec PdfGeo PdfProof PdfSum PdfPeak PdfPhase PdfTotal PdfSafe PdfFinal DerivSetup FactModel FactSpec FactProof.
Import ListNotations.
Local Open Scope R_scope.

(** ** factors multiplied by a constant *)
Definition re (p : cphase) (atoms : list catom) : cphase :=
  mkCp (cp_a0 p) (cp_win p) (cp_icc p) atoms (cp_delta2 p) (cp_delta1 p) (cp_pscale p) (cp_spd p) (cp_stepcut p) (cp_sratio p) (cp_rcut p).
Section Same.
Variables (tp : ascii) (c : R).
Hypothesis C0 : c <> 0.

Lemma sum_scaled atoms atoms' : Forall2 (rescaled tp c) atoms atoms' -> forall s,
  fold_left (fun s a => s + at_occ a * at_sf a tp) atoms' (c * s) = c * fold_left (fun s a => s + at_occ a * at_sf a tp) atoms s.
Proof.
  intros F. induction F as [|a b l l' (_ & _ & O & S) F IH]; intros s; cbn [fold_left]; auto.
  rewrite <- IH. f_equal. rewrite O, S. ring.
Qed.
Lemma weights_same np atoms atoms' : Forall2 (rescaled tp c) atoms atoms' -> weights tp np atoms' = weights tp np atoms.
Proof.
  intros F. unfold weights. pose proof (sum_scaled _ _ F 0) as S. rewrite Rmult_0_r in S. rewrite S. set (b := fold_left _ atoms 0). clearbody b. clear S.
  induction F as [|a a' l l' (_ & _ & _ & SF) F IH]; cbn [map]; auto. rewrite IH. f_equal. rewrite SF. cbn [ndiv].
  destruct (Req_EM_T np 0) as [|N]; auto. cbn [ndiv].
  destruct (Req_EM_T (b / np) 0) as [Z|Z], (Req_EM_T (c * b / np) 0) as [Y|Y]; auto.
  - exfalso. apply Y. unfold Rdiv in *. rewrite Rmult_assoc, Z. ring.
  - exfalso. apply Z. unfold Rdiv in *. rewrite Rmult_assoc in Y. apply Rmult_integral in Y. tauto.
  - f_equal. field. repeat split; auto. intros B. apply Z. rewrite B. unfold Rdiv. ring.
Qed.
Lemma peak_same qb m M p atoms l wi wj ai aj ai' aj' b t : rescaled tp c ai ai' -> rescaled tp c aj aj' ->
  pair_peak qb m M (re p atoms) l wi wj ai' aj' b t = pair_peak qb m M p l wi wj ai aj b t.
Proof.
  destruct ai, aj, ai', aj'. unfold rescaled. cbn. intros (-> & -> & -> & _) (-> & -> & -> & _). reflexivity.
Qed.
Lemma rd_same atoms atoms' i : Forall2 (rescaled tp c) atoms atoms' ->
  (exists a a', rd atoms i = Ok a /\ rd atoms' i = Ok a' /\ rescaled tp c a a') \/ (rd atoms i = UB /\ rd atoms' i = UB).
Proof.
  intros F. unfold rd. revert i. induction F as [|a a' l l' H F IH]; intros [|i]; cbn [nth_error]; auto. left. eauto.
Qed.
Lemma sums_same fuel d rcmin rcmax ncmin ncmax e atoms : cd_type d = tp -> Forall2 (rescaled tp c) (cp_atoms (en_ph e)) atoms ->
  phase_sums fuel d rcmin rcmax ncmin ncmax (mkEnt (re (en_ph e) atoms) (en_der e) (en_igni e) (en_ignj e)) = phase_sums fuel d rcmin rcmax ncmin ncmax e.
Proof.
  intros T F. destruct e as [p de gi gj]. unfold phase_sums. cbn [en_ph en_der en_igni en_ignj] in *. cbn [re cp_atoms].
  change (cp_a0 (re p atoms)) with (cp_a0 p). change (cp_win (re p atoms)) with (cp_win p). change (cp_icc (re p atoms)) with (cp_icc p). change (cp_stepcut (re p atoms)) with (cp_stepcut p).
  rewrite T, (weights_same (de_np de) _ _ F). rewrite <- (F2_length _ _ _ F).
  assert (CD : circum_diameter (de_lat de) atoms = circum_diameter (de_lat de) (cp_atoms p)). { destruct F; reflexivity. } rewrite CD.
  destruct ((ncmin <? 0) || (ncmax + 1 <? ncmin))%Z; auto. destruct (dist_limits rcmin rcmax) as [rmin2 rmax2].
  match goal with |- obind ?x _ = obind ?x _ => destruct x as [pts| | |]; cbn [obind]; auto end.
  match goal with |- obind ?x _ = obind ?y _ => assert (E : x = y); [|rewrite E; reflexivity] end.
  apply ofold_ext. intros ppp [i j]. destruct (skip_pair gi gj i j); auto.
  destruct (rd_same _ _ i F) as [(ai & ai' & -> & -> & Ri)|[-> ->]]; cbn [obind]; auto.
  destruct (rd_same _ _ j F) as [(aj & aj' & -> & -> & Rj)|[-> ->]]; cbn [obind]; auto.
  apply ofold_ext. intros q mno. rewrite (peak_same _ _ _ p atoms _ _ _ ai aj ai' aj') by auto. reflexivity.
Qed.
Lemma phase_same fuel d rcmin rcmax ncmin ncmax t e atoms : cd_type d = tp -> Forall2 (rescaled tp c) (cp_atoms (en_ph e)) atoms ->
  add_phase fuel d rcmin rcmax ncmin ncmax t (mkEnt (re (en_ph e) atoms) (en_der e) (en_igni e) (en_ignj e)) = add_phase fuel d rcmin rcmax ncmin ncmax t e.
Proof. intros T F. unfold add_phase. rewrite sums_same by auto. destruct e. reflexivity. Qed.
End Same.

Lemma pdf_same fuel d psel psel' : Forall2 (same_but_factors (cd_type d)) psel psel' -> determine fuel d psel' = determine fuel d psel.
Proof.
  intros F. assert (X : forall a b m n t, 
    ofold (fun t pe => match pe with Some e => add_phase fuel d a b m n t e | None => Ok t end) psel' t =
    ofold (fun t pe => match pe with Some e => add_phase fuel d a b m n t e | None => Ok t end) psel t).
  { intros a b m n. induction F as [|x y l l' S F IH]; intros t; cbn [ofold]; auto.
    assert (E : match y with Some e => add_phase fuel d a b m n t e | None => Ok t end = match x with Some e => add_phase fuel d a b m n t e | None => Ok t end).
    { destruct x as [e|], y as [e'|]; cbn in S; try contradiction; auto. destruct S as (atoms & c & C0 & FA & ->). apply (phase_same (cd_type d) c); auto. }
    rewrite E. match goal with |- obind ?x _ = _ => destruct x; cbn [obind]; auto end. }
  unfold determine. destruct (nint_div (cd_rfmin d - cd_rmin d) (cd_deltar d)) as [z1| | |]; cbn [obind]; auto. destruct (nint_div (cd_rfmax d - cd_rmin d) (cd_deltar d)) as [z2| | |]; cbn [obind]; auto.
  destruct (calc_range d) as [[[[a b] m] n]| | |]; cbn [obind]; auto. rewrite X. reflexivity.
Qed.

(** ** the average is zero *)
Lemma null_weights d p np : null_average d p -> weights (cd_type d) np (cp_atoms p) = map (fun _ => None) (cp_atoms p).
Proof.
  intros [_ Z]. unfold weights. rewrite (sum_nth (fun a => at_occ a * at_sf a (cd_type d))). change (length (cp_atoms p)) with (natoms p).
  match goal with |- context [rsum _ ?f] => replace (rsum (natoms p) f) with 0 by (symmetry; exact Z) end.
  apply map_ext. intros a. cbn [ndiv]. destruct (Req_EM_T np 0); auto. cbn [ndiv]. replace (0 / np) with 0 by (unfold Rdiv; ring). destruct (Req_EM_T 0 0); auto. lra.
Qed.
Lemma none_norm {A} gi gj (l : list A) : (1 <= length l)%nat -> pair_norm gi gj (map (fun _ => None) l) = None.
Proof.
  intros L. unfold pair_norm. rewrite map_length. destruct (length l) as [|n] eqn:E; [lia|].
  assert (W : forall i, nth i (map (fun _ : A => @None R) l) None = None). { clear. induction l; destruct i; cbn; auto. }
  assert (H : half_loop (S n) = (0%nat, 0%nat) :: tl (half_loop (S n))) by reflexivity.
  match goal with |- ndiv ?x (fold_left ?add (half_loop (S n)) (Some 0)) = None => assert (Z : fold_left add (half_loop (S n)) (Some 0) = None) end.
  { rewrite H. cbn [fold_left]. rewrite W. cbn [nmul nadd Nat.eqb]. generalize (tl (half_loop (S n))). intros k.
    induction k as [|[i j] k IH]; cbn [fold_left]; auto. }
  match goal with |- ndiv ?x ?y = None => transitivity (ndiv x None); [f_equal; exact Z|destruct x; reflexivity] end.
Qed.
Lemma null_sums fuel d a b m n e ppp dn : null_average d (en_ph e) -> phase_sums fuel d a b m n e = Ok (ppp, dn) -> dn = None.
Proof.
  intros NA. unfold phase_sums. rewrite (null_weights d (en_ph e) _ NA), none_norm by (apply NA).
  destruct ((m <? 0) || (n + 1 <? m))%Z; [discriminate|]. destruct (dist_limits a b) as [r1 r2].
  match goal with |- obind ?x _ = _ -> _ => destruct x as [pts| | |]; cbn [obind]; try discriminate end.
  match goal with |- obind ?x _ = _ -> _ => destruct x as [q| | |]; cbn [obind]; try discriminate end.
  intros E. inversion E. auto.
Qed.
Lemma calc_none d p np rho i v : calc_point d p np rho None i v = None.
Proof. unfold calc_point. cbv zeta. rewrite !nmul_none. destruct (ndiv (ndiv v (Some np)) _); cbn [nsub]; repeat (destruct (Rlt_dec _ _)); reflexivity. Qed.

Section Null.
Variable d : cdata.
Hypothesis G : good_grid d.
Let lo := idx d (calc_lo d).
Let hi := idx d (calc_hi d).

Lemma null_loop (g : Z -> num -> num) ppp l : (forall i v, g i v = None) -> forall t t',
  ofold (fun t i => obind (rdz ppp i) (fun v => obind (rdz t i) (fun old => wrz t i (nadd old (g i v))))) l t = Ok t' ->
  length t' = length t /\ (forall i, (0 <= i)%Z -> el t i = None -> el t' i = None) /\ forall i, In i l -> el t' i = None.
Proof.
  intros GN. induction l as [|i l IH]; intros t t' E; cbn [ofold] in E.
  - inversion E; subst. split; auto. split; auto. intros i [].
  - destruct (rdz ppp i) as [v| | |]; cbn [obind] in E; try discriminate. destruct (rdz t i) as [old| | |]; cbn [obind] in E; try discriminate.
    rewrite GN, nadd_none in E. unfold wrz in E. destruct (Z.ltb_spec i 0); cbn [obind] in E; [discriminate|].
    unfold wr in E. destruct (Nat.ltb_spec (Z.to_nat i) (length t)); cbn [obind] in E; [|discriminate].
    destruct (IH _ _ E) as (L & K & I). rewrite upd_length in L. split; auto.
    assert (Y : forall k, (0 <= k)%Z -> el t k = None \/ k = i -> el (upd (Z.to_nat i) None t) k = None).
    { intros k Hk O. unfold el. rewrite PdfProof.upd_nth by auto. destruct (Nat.eqb_spec (Z.to_nat k) (Z.to_nat i)); auto. destruct O as [O|O]; [exact O|subst; contradiction]. }
    split.
    + intros k Hk N. apply K; auto.
    + intros k [<-|Hk]. apply K; auto. apply I; auto.
Qed.
Lemma null_phase fuel t t' e : null_average d (en_ph e) -> add_phase fuel d (calc_lo d) (calc_hi d) lo hi t e = Ok t' -> spoiled d t'.
Proof.
  intros NA E. unfold add_phase in E. destruct (phase_sums fuel d (calc_lo d) (calc_hi d) lo hi e) as [[ppp dn]| | |] eqn:PS; cbn [obind] in E; try discriminate.
  rewrite (null_sums _ _ _ _ _ _ _ _ _ NA PS) in E.
  destruct (null_loop (fun i v => nmul (Some (cd_dscale d * cp_pscale (en_ph e))) (calc_point d (en_ph e) (de_np (en_der e)) (de_rho0 (en_der e)) None i v)) ppp _ ltac:(intros i0 v0; cbv beta; rewrite calc_none; reflexivity) _ _ E) as (_ & _ & I).
  intros g Hg. apply I. apply zloop_in. exact Hg.
Qed.
Lemma null_phases psel : (forall e, In e (selected_entries psel) -> cell_ok e) -> exists f0, forall fuel t, (f0 <= fuel)%nat -> length t = Z.to_nat (hi + 1) -> exists t',
  ofold (fun t pe => match pe with Some e => add_phase fuel d (calc_lo d) (calc_hi d) lo hi t e | None => Ok t end) psel t = Ok t' /\ safe_to d t t' /\
  ((exists e, In e (selected_entries psel) /\ null_average d (en_ph e)) -> spoiled d t').
Proof.
  induction psel as [|[e|] psel IH]; intros H.
  - exists 0%nat. intros fuel t _ L. exists t. split; auto. split. apply safe_refl; auto. intros (e & [] & _).
  - cbn [selected_entries] in *. destruct IH as (f1 & R1). { intros; apply H; right; auto. }
    destruct (H e (or_introl eq_refl)) as (U & C & I & S). destruct (add_phase_any d G e U C I S) as (f2 & R2).
    exists (Nat.max f1 f2). intros fuel t Hf L. destruct (R2 fuel t ltac:(lia) L) as (t1 & E1 & S1 & _ & _). destruct (R1 fuel t1 ltac:(lia) (proj1 S1)) as (t2 & E2 & S2 & P2).
    exists t2. cbn [ofold]. fold lo hi in E1. rewrite E1. cbn [obind]. split; auto. split. eapply safe_trans; eauto.
    intros (e' & [<-|I'] & NA). apply (safe_spoilt d G t1); auto. eapply null_phase; eauto. apply P2. eauto.
  - cbn [selected_entries] in *. destruct (IH H) as (f1 & R1). exists f1. exact R1.
Qed.
Lemma null_nan psel : good_filter d -> (forall e, In e (selected_entries psel) -> cell_ok e) ->
  (exists e, In e (selected_entries psel) /\ null_average d (en_ph e)) ->
  exists f0, forall fuel, (f0 <= fuel)%nat -> exists f1 f2 t, determine fuel d psel = Ok (f1, f2, t) /\ spoilt d t.
Proof.
  intros GF H NA. destruct (null_phases psel H) as (f0 & Rf). destruct (determine_any d G psel GF H) as (f1 & Df). exists (Nat.max f0 f1). intros fuel Hf.
  destruct (Df fuel ltac:(lia)) as (t & E & _). exists (idx d (cd_rfmin d)), (idx d (cd_rfmax d)), t. split; auto. apply spoiled_spoilt; auto.
  destruct (Rf fuel (repeat (Some 0) (Z.to_nat (hi + 1))) ltac:(lia) ltac:(apply repeat_length)) as (q & EQ & (LQ & _) & SQ). specialize (SQ NA).
  pose proof (lo_hi d G) as LH. fold lo hi in LH. pose proof (calc_order d G) as ((C1 & C2) & C3). pose proof G as (D & P0 & [R1 R2] & B).
  unfold determine in E. rewrite (nint_grid d G (cd_rfmin d)) in E by lra. rewrite (nint_grid d G (cd_rfmax d)) in E by lra. rewrite (calc_range_ok d G) in E. cbn [obind] in E.
  fold lo hi in E. destruct (Z.ltb_spec (hi + 1) 0); [lia|]. rewrite EQ in E. cbn [obind] in E.
  destruct (Rlt_dec 0 (cd_qmax d)) as [Q|Q]; [|inversion E; subst; exact SQ].
  destruct (Z.ltb_spec lo 0); [lia|]. destruct (Z.ltb_spec hi lo); [lia|]. cbn [orb] in E. fold lo hi in LQ.
  assert (LS : length (skipn (Z.to_nat lo) q) = Z.to_nat (hi - lo + 1)) by (rewrite skipn_length, LQ; lia).
  assert (IN : In None (skipn (Z.to_nat lo) q)).
  { rewrite <- (SQ lo ltac:(lia)). unfold el. replace (Z.to_nat lo) with (Z.to_nat lo + 0)%nat at 1 by lia. rewrite <- skip_nth. apply nth_In. rewrite LS. lia. }
  unfold cutoff in E. rewrite (all_fin_none _ IN) in E. cbn [omap obind] in E. inversion E; subst t. clear E.
  intros g Hg. unfold el. rewrite app_nth2; rewrite firstn_length, LQ; fold lo hi in Hg; [|lia].
  generalize (skipn (Z.to_nat lo) q). intros l. generalize (Z.to_nat g - Nat.min (Z.to_nat lo) (Z.to_nat (hi + 1)))%nat. induction l; intros [|k]; cbn; auto.
Qed.
End Null.

(** ** X-rays *)
Lemma xsf_pos_b : forallb (fun e => ((0 <? fst (el_xsf e))%Z && (fst (el_xsf e) =? el_z e)%Z && (snd (el_xsf e) =? 0)%nat)%bool) elements = true.
Proof. vm_compute. reflexivity. Qed.
Lemma xsf_ok e : In e elements -> standard e XRay = IZR (el_z e) /\ 0 < standard e XRay.
Proof.
  intros I. pose proof (proj1 (forallb_forall _ _) xsf_pos_b e I) as H. apply andb_prop in H. destruct H as [H S]. apply andb_prop in H. destruct H as [P Z].
  apply Z.ltb_lt in P. apply Z.eqb_eq in Z. apply Nat.eqb_eq in S. unfold standard. rewrite S. cbn [pow].
  assert (IZR (fst (el_xsf e)) / 1 = IZR (el_z e)) as E by (rewrite Z; field). split; auto. rewrite E, <- Z. apply IZR_lt; auto.
Qed.
Lemma rsum_pos n f i : (forall k, (k < n)%nat -> 0 <= f k) -> (i < n)%nat -> 0 < f i -> 0 < rsum n f.
Proof.
  induction n; intros P Hi F. lia. cbn [rsum].
  assert (NN : forall m, (m <= n)%nat -> 0 <= rsum m f). { induction m; intros; cbn [rsum]. lra. pose proof (P m ltac:(lia)). specialize (IHm ltac:(lia)). lra. }
  destruct (Nat.eq_dec i n) as [->|Ne]. specialize (NN n (le_n _)). lra. pose proof (P n ltac:(lia)). assert (0 < rsum n f) by (apply IHn; auto; lia). lra.
Qed.
Lemma xray_ok d p : xray_phase d p -> 0 < occ_sum p /\ 0 < mean_sf d p /\ 0 < rsum (natoms p) (fun i => at_sf (atom_no p i) (cd_type d)) /\
  forall i, (i < natoms p)%nat -> 0 < weight_no d p i.
Proof.
  intros (S & O & (i & Hi & Pi)).
  assert (SP : forall k, (k < natoms p)%nat -> 0 < at_sf (atom_no p k) (cd_type d)). { intros k Hk. destruct (S k Hk) as (e & I & ->). apply xsf_ok; auto. }
  assert (A : 0 < occ_sum p) by (apply (rsum_pos _ _ i); auto).
  assert (B : 0 < mean_sf d p).
  { unfold mean_sf. apply Rdiv_lt_0_compat; auto. apply (rsum_pos _ _ i); auto. intros k Hk. apply Rmult_le_pos; auto. left; auto. apply Rmult_lt_0_compat; auto. }
  split; auto. split; auto. split. apply (rsum_pos _ _ i); auto. intros k Hk. left; auto.
  intros k Hk. unfold weight_no. apply Rdiv_lt_0_compat; auto.
Qed.
