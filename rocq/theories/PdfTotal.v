(** From the sums of pairs to the PDF of the sample. *)
From Coq Require Import List Arith ZArith Reals Bool Lia Lra.
From Verif Require Import Base RSum MathModel MetricModel MetricSpec SphereModel SphereProof PdfModel PdfSpec PdfProof PdfGeo PdfSum PdfPeak PdfPhase PdfFft.
Import ListNotations.
Local Open Scope R_scope.

Lemma grid_pos d g : good_grid d -> off_origin d -> (idx d (calc_lo d) <= g)%Z -> 0 < grid d g.
Proof.
  intros G O H. pose proof (calc_order d G) as ((C & _) & _). pose proof (idx_nonneg d G (calc_lo d) C) as N. pose proof (deltar_pos d G) as D.
  unfold grid. assert (0 <= IZR g) by (apply IZR_le; lia). destruct O as [P|[Z P]].
  - assert (0 <= IZR g * cd_deltar d) by (apply Rmult_le_pos; lra). lra.
  - assert (1 <= idx d (calc_lo d))%Z. { apply (idx_ge d G); [lia|]. unfold grid. rewrite Z. split; lra. }
    assert (1 <= IZR g) by (apply IZR_le; lia). rewrite Z. assert (1 * cd_deltar d <= IZR g * cd_deltar d) by (apply Rmult_le_compat_r; lra). lra.
Qed.

Lemma ndiv_ok x y : y <> 0 -> ndiv (Some x) (Some y) = Some (x / y).
Proof. intros H. unfold ndiv. destruct (Req_EM_T y 0); [contradiction|auto]. Qed.

Lemma calc_point_ok d p np rho dn i v : np <> 0 -> grid d i <> 0 ->
  calc_point d p np (Some rho) (Some dn) i (Some v) =
  Some (envelope d p (grid d i) * (v / (np * grid d i) - 4 * PI * grid d i * rho * dn)).
Proof.
  intros N R. unfold calc_point. replace (IZR i * cd_deltar d + cd_rmin d) with (grid d i) by (unfold grid; ring).
  set (r := grid d i) in *. cbv zeta. rewrite ndiv_ok by auto. rewrite ndiv_ok by auto. unfold envelope, m_sqr, sphereEnvelope. 
  destruct (Rlt_dec 0 (cd_qdamp d)), (Rlt_dec 0 (cp_spd p)) as [S|S], (Rlt_dec 0 (cp_stepcut p)); cbn [nsub nmul];
    try destruct (Rle_dec r (cp_stepcut p));
    try (destruct (Rlt_dec (r / cp_spd p) 1) as [A|A], (Rlt_dec r (cp_spd p)) as [B|B]);
    try (exfalso; apply B; apply (Rmult_lt_compat_r (cp_spd p)) in A; auto; replace (r / cp_spd p * cp_spd p) with r in A by (field; lra); lra);
    try (exfalso; apply A; apply (Rmult_lt_reg_r (cp_spd p)); auto; replace (r / cp_spd p * cp_spd p) with r by (field; lra); lra);
    f_equal; field; auto; repeat split; auto; lra.
Qed.

Section Total.
Variable d : cdata.
Hypothesis G : good_grid d.
Hypothesis O : off_origin d.
Let lo := idx d (calc_lo d).
Let hi := idx d (calc_hi d).
Let N := Z.to_nat (hi + 1).

Lemma lo_hi : (0 <= lo <= hi)%Z.
Proof.
  pose proof (calc_order d G) as ((C1 & C2) & C3). split. apply (idx_nonneg d G); auto. apply (idx_mono d G). destruct G as (_ & _ & ? & _). lra.
Qed.

(** one phase *)
Definition found_list (d : cdata) (e : centry) (W : list pairT) : Prop :=
  pair_list d e W /\ forall i j t, In (i, j, t) W -> length_of (en_ph e) (trans (en_ph e) t) < sph_hi d e.
Lemma add_phase_ok e : up_to_date e -> sane_phase d (en_ph e) ->
  exists W f0 V, found_list d e W /\ (forall g, (lo <= g <= hi)%Z -> phase_pdf d e W g (V g)) /\
  forall s x fuel t, (f0 <= fuel)%nat -> length t = N -> exists t', add_phase fuel (with_dscale s d) (calc_lo d) (calc_hi d) lo hi t (with_pscale x e) = Ok t' /\ length t' = N /\
    forall g, (0 <= g <= hi)%Z -> el t' g = if (g <? lo)%Z then el t g else nadd (el t g) (Some (s * x * V g)).
Proof.
  intros UTD SP. pose proof lo_hi as LH. set (p := en_ph e) in *. set (de := en_der e) in *.
  pose proof SP as (PC & TN & ICC & OS & _).
  destruct (sphere_found p PC ICC (sph_lo d e) (sph_hi d e)) as (f0 & pts & F & ND & C & SB).
  set (W := pair_W d e pts).
  exists W, f0, (fun g => envelope d p (grid d g) * (lsum (value d e g) W / (occ_sum p * grid d g) - 4 * PI * grid d g * density p * counted_share d p (en_igni e) (en_ignj e))).
  split. { split. apply W_pairs; auto. intros i j t. apply W_sphere; auto. }
  split. { intros g Hg. unfold phase_pdf. exists (lsum (value d e g) W). split; [|reflexivity]. exists (value d e g). split; auto. intros x _. apply value_term. }
  intros s x fuel t Hf Lt. unfold add_phase.
  change (phase_sums fuel (with_dscale s d) (calc_lo d) (calc_hi d) lo hi (with_pscale x e)) with (phase_sums fuel d (calc_lo d) (calc_hi d) lo hi e).
  destruct (phase_sums_ok d e G UTD SP fuel pts (F fuel Hf)) as (ppp & E & L & X). fold lo hi in E, X. rewrite E. cbn [obind].
  fold hi in L. fold N in L.
  set (h := fun g => nmul (Some (s * x)) (calc_point d p (de_np de) (de_rho0 de) (Some (counted_share d p (en_igni e) (en_ignj e))) g (el ppp g))).
  destruct (bump_ok h (zloop lo hi) t) as (t' & E' & L' & X'). apply zloop_nodup. { intros g Hg. apply zloop_in in Hg. rewrite Lt. unfold N. lia. }
  exists t'. split; [|split].
  - rewrite <- E'. 
    assert (OE : forall l t, (forall g, In g l -> (0 <= g <= hi)%Z) ->
      ofold (fun (pdftot : list num) (i : Z) => obind (rdz ppp i) (fun v => obind (rdz pdftot i) (fun old => wrz pdftot i (nadd old (nmul (Some (s * x)) (calc_point d p (de_np de) (de_rho0 de) (Some (counted_share d p (en_igni e) (en_ignj e))) i v)))))) l t =
      ofold (fun l g => obind (rdz l g) (fun old => wrz l g (nadd old (h g)))) l t).
    { induction l; intros t1 B; cbn [ofold]; auto. rewrite rdz_ok by (rewrite L; pose proof (B a (or_introl eq_refl)); unfold N; lia). cbn [obind].
      fold (h a). destruct (obind (rdz t1 a) _); cbn [obind]; auto. apply IHl. intros; apply B; right; auto. }
    apply OE. intros g Hg. apply zloop_in in Hg. lia.
  - congruence.
  - intros g Hg. destruct (X' g) as [Y1 Y2]; [lia|]. destruct (Z.ltb_spec g lo).
    + apply Y2. rewrite zloop_in. lia.
    + rewrite Y1 by (apply zloop_in; lia). f_equal. unfold h. rewrite X by lia. fold W.
      rewrite (np_is p de UTD), (rho0_is p de UTD PC TN ICC). pose proof (grid_pos d g G O H). rewrite calc_point_ok by (auto; lra). reflexivity.
Qed.

(** all selected phases *)
Lemma phases_ok psel : (forall e, In e (selected_entries psel) -> up_to_date e /\ sane_phase d (en_ph e)) ->
  exists Ws f0 Vs, Forall2 (found_list d) (selected_entries psel) Ws /\
  (forall g, (lo <= g <= hi)%Z -> Forall2 (fun eW V => phase_pdf d (fst eW) (snd eW) g (V g)) (combine (selected_entries psel) Ws) Vs) /\ length Vs = length (selected_entries psel) /\
  forall s xs fuel t, length xs = length Vs -> (f0 <= fuel)%nat -> length t = N -> exists t',
    ofold (fun t pe => match pe with Some e => add_phase fuel (with_dscale s d) (calc_lo d) (calc_hi d) lo hi t e | None => Ok t end) (with_pscales xs psel) t = Ok t' /\ length t' = N /\
    forall g, (0 <= g <= hi)%Z -> el t' g = if (g <? lo)%Z then el t g else nadd (el t g) (Some (mix s xs Vs g)).
Proof.
  induction psel as [|[e|] psel IH]; intros H.
  - exists [], 0%nat, []. split. constructor. split. intros; constructor. split; auto. intros s xs fuel t LX _ L. destruct xs; [|discriminate]. exists t. cbn. split; auto. split; auto. intros g _. destruct (g <? lo)%Z; auto. destruct (el t g); simpl; auto. f_equal. ring.
  - cbn [selected_entries] in *. destruct IH as (Ws & f1 & Vs & P1 & T1 & LV & R1). { intros; apply H; right; auto. }
    destruct (H e (or_introl eq_refl)) as (U & S). destruct (add_phase_ok e U S) as (W & f2 & V2 & P2 & T2 & R2).
    exists (W :: Ws), (Nat.max f1 f2), (V2 :: Vs). split. constructor; auto. split; [|split].
    + intros g Hg. cbn [combine]. constructor; auto.
    + cbn [length]. congruence.
    + intros s xs fuel t LX Hf L. destruct xs as [|x xs]; [discriminate|]. cbn [with_pscales]. destruct (R2 s x fuel t ltac:(lia) L) as (t1 & E1 & L1 & X1).
      destruct (R1 s xs fuel t1 ltac:(simpl in LX; lia) ltac:(lia) L1) as (t2 & E2 & L2 & X2).
      exists t2. cbn [ofold]. rewrite E1. cbn [obind]. split; auto. split; auto. intros g Hg. rewrite X2, X1 by auto. destruct (Z.ltb_spec g lo); auto. cbn [mix]. destruct (el t g); simpl; auto. f_equal. ring.
  - cbn [selected_entries with_pscales] in *. destruct (IH H) as (Ws & f1 & Vs & P1 & T1 & LV & R1). exists Ws, f1, Vs. auto.
Qed.

(** the values of the calculated points, as a list *)
Lemma all_fin_some l : all_fin (map Some l) = Some l.
Proof. induction l; simpl; auto. rewrite IHl. auto. Qed.
Lemma skipn_vals t V : length t = N -> (forall g, (lo <= g <= hi)%Z -> el t g = Some (V g)) -> skipn (Z.to_nat lo) t = map Some (map V (zloop lo hi)).
Proof.
  intros L X. pose proof lo_hi as LH. apply (nth_ext _ _ None None).
  - rewrite skipn_length, !map_length, L. unfold zloop. rewrite map_length, seq_length. unfold N. lia.
  - intros k Hk. rewrite skipn_length, L in Hk. unfold N in Hk.
    assert (NS : forall (l : list num) a b, nth b (skipn a l) None = nth (a + b) l None).
    { intros l a. revert l. induction a; intros l b; auto. destruct l; [destruct b; reflexivity|]. apply IHa. }
    rewrite NS. specialize (X (lo + Z.of_nat k)%Z ltac:(lia)). unfold el in X. replace (Z.to_nat (lo + Z.of_nat k)) with (Z.to_nat lo + k)%nat in X by lia. rewrite X.
    rewrite map_map. unfold zloop. rewrite map_map. rewrite (nth_map_seq _ _ _ k) by lia. reflexivity.
Qed.
Lemma firstn_vals t : length t = N -> (forall g, (0 <= g < lo)%Z -> el t g = Some 0) -> firstn (Z.to_nat lo) t = repeat (Some 0) (Z.to_nat lo).
Proof.
  intros L X. pose proof lo_hi as LH. apply (nth_ext _ _ None None).
  - rewrite firstn_length, repeat_length, L. unfold N. lia.
  - intros k Hk. rewrite firstn_length, L in Hk. unfold N in Hk.
    rewrite (nth_indep (repeat _ _) None (Some 0)) by (rewrite repeat_length; lia). rewrite nth_repeat.
    specialize (X (Z.of_nat k) ltac:(lia)). unfold el in X. rewrite Nat2Z.id in X. rewrite <- X.
    rewrite <- (firstn_skipn (Z.to_nat lo) t) at 2. rewrite app_nth1; auto. rewrite firstn_length, L. unfold N. lia.
Qed.

Lemma zloop_len a b : (a <= b + 1)%Z -> length (zloop a b) = Z.to_nat (b - a + 1).
Proof. intros H. unfold zloop. rewrite map_length, seq_length. f_equal; lia. Qed.

Lemma determine_lin psel : good_filter d ->
  (forall e, In e (selected_entries psel) -> up_to_date e /\ sane_phase d (en_ph e)) ->
  exists Ws f0 Vs, Forall2 (found_list d) (selected_entries psel) Ws /\
  (forall g, (lo <= g <= hi)%Z -> Forall2 (fun eW V => phase_pdf d (fst eW) (snd eW) g (V g)) (combine (selected_entries psel) Ws) Vs) /\ length Vs = length (selected_entries psel) /\
  forall s xs, length xs = length Vs -> exists out,
  (cd_qmax d <= 0 -> out = map (mix s xs Vs) (zloop lo hi)) /\ (0 < cd_qmax d -> filtered (cd_qmax d) (cd_deltar d) (map (mix s xs Vs) (zloop lo hi)) out) /\
  length out = Z.to_nat (hi - lo + 1) /\
  forall fuel, (f0 <= fuel)%nat -> determine fuel (with_dscale s d) (with_pscales xs psel) = Ok (idx d (cd_rfmin d), idx d (cd_rfmax d), repeat (Some 0) (Z.to_nat lo) ++ map Some out).
Proof.
  intros GF H. pose proof lo_hi as LH. destruct (phases_ok psel H) as (Ws & f0 & Vs & P & T & LVs & R).
  exists Ws, f0, Vs. split; auto. split; auto. split; auto. intros s xs LX. set (V := mix s xs Vs).
  pose proof (calc_order d G) as ((C1 & C2) & C3). pose proof G as (D & P0 & [R1 R2] & B). pose proof (idx_mono d G) as IM.
  assert (LV : length (map V (zloop lo hi)) = Z.to_nat (hi - lo + 1)) by (rewrite map_length, zloop_len; auto; lia).
  assert (DET : forall fuel, (f0 <= fuel)%nat -> exists t, length t = N /\ firstn (Z.to_nat lo) t = repeat (Some 0) (Z.to_nat lo) /\ skipn (Z.to_nat lo) t = map Some (map V (zloop lo hi)) /\
    determine fuel (with_dscale s d) (with_pscales xs psel) = if Rlt_dec 0 (cd_qmax d) then omap (fun y => (idx d (cd_rfmin d), idx d (cd_rfmax d), repeat (Some 0) (Z.to_nat lo) ++ y)) (cutoff (cd_qmax d) (cd_deltar d) (map Some (map V (zloop lo hi)))) else Ok (idx d (cd_rfmin d), idx d (cd_rfmax d), t)).
  { intros fuel Hf. destruct (R s xs fuel (repeat (Some 0) N) LX Hf) as (t & E & L & X). apply repeat_length.
    assert (S1 : firstn (Z.to_nat lo) t = repeat (Some 0) (Z.to_nat lo)).
    { apply firstn_vals; auto. intros g Hg. rewrite X by lia. destruct (Z.ltb_spec g lo); [|lia]. apply el_repeat. unfold N. lia. }
    assert (S2 : skipn (Z.to_nat lo) t = map Some (map V (zloop lo hi))).
    { apply skipn_vals; auto. intros g Hg. rewrite X by lia. destruct (Z.ltb_spec g lo); [lia|]. rewrite el_repeat by (unfold N; lia). cbn. f_equal. fold V. ring. }
    exists t. split; auto. split; auto. split; auto.
    unfold determine. change (calc_range (with_dscale s d)) with (calc_range d). cbn [with_dscale cd_rmin cd_rfmin cd_rfmax cd_deltar cd_qmax].
    rewrite (nint_grid d G (cd_rfmin d)) by lra. rewrite (nint_grid d G (cd_rfmax d)) by lra. rewrite (calc_range_ok d G). cbn [obind].
    fold lo hi. destruct (Z.ltb_spec (hi + 1) 0); [lia|]. fold N. 
    change (fun t pe => match pe with Some e => add_phase fuel (mkCd (cd_rmin d) (cd_rfmin d) (cd_rfmax d) (cd_deltar d) (cd_qmax d) (cd_qdamp d) (cd_qbroad d) s (cd_type d)) (calc_lo d) (calc_hi d) lo hi t e | None => Ok t end) with
      (fun t pe => match pe with Some e => add_phase fuel (with_dscale s d) (calc_lo d) (calc_hi d) lo hi t e | None => Ok t end) || idtac.
    rewrite E. cbn [obind].
    fold (idx d (cd_rfmin d)) (idx d (cd_rfmax d)).
    destruct (Rlt_dec 0 (cd_qmax d)); auto. destruct (Z.ltb_spec lo 0); [lia|]. destruct (Z.ltb_spec hi lo); [lia|]. cbn [orb]. rewrite S1, S2. reflexivity. }
  destruct (Rlt_dec 0 (cd_qmax d)) as [Q|Q].
  - destruct (cutoff_ok (cd_qmax d) (cd_deltar d) (map V (zloop lo hi))) as (out & E & F); auto.
    + rewrite LV. lia.
    + rewrite LV. specialize (GF Q).
      assert (INR (Z.to_nat (hi - lo + 1)) * cd_deltar d <= calc_hi d - calc_lo d + 2 * cd_deltar d).
      { rewrite INR_IZR_INZ, Z2Nat.id, plus_IZR, minus_IZR by lia.
        pose proof (idx_nearest d G (calc_lo d) ltac:(lra)) as [A1 A2]. pose proof (idx_nearest d G (calc_hi d) ltac:(lra)) as [B1 B2]. fold lo in A1, A2. fold hi in B1, B2. unfold grid in *. lra. }
      assert (4 * cd_qmax d * (INR (Z.to_nat (hi - lo + 1)) * cd_deltar d) <= 4 * cd_qmax d * (calc_hi d - calc_lo d + 2 * cd_deltar d)) by (apply Rmult_le_compat_l; lra). lra.
    + exists out. split. intros; lra. split; auto. split. { destruct F as (Pd & _ & LL & _). rewrite LL. auto. }
      intros fuel Hf. destruct (DET fuel Hf) as (t & _ & _ & _ & ->). unfold cutoff. rewrite all_fin_some, E. reflexivity.
  - exists (map V (zloop lo hi)). split; auto. split. intros; lra. split; auto.
    intros fuel Hf. destruct (DET fuel Hf) as (t & _ & S1 & S2 & ->). rewrite <- S1, <- S2, firstn_skipn. reflexivity.
Qed.
End Total.

(** the scales as they are *)
Lemma same_dscale d : with_dscale (cd_dscale d) d = d. Proof. destruct d; reflexivity. Qed.
Lemma same_pscale e : with_pscale (cp_pscale (en_ph e)) e = e. Proof. destruct e as [[] ? ? ?]; reflexivity. Qed.
Lemma same_pscales psel : with_pscales (map (fun e => cp_pscale (en_ph e)) (selected_entries psel)) psel = psel.
Proof. induction psel as [|[e|] psel IH]; cbn [selected_entries map with_pscales]; auto. rewrite same_pscale, IH. auto. rewrite IH; auto. Qed.
Lemma mix_total d g es : forall Ws Vs, length Vs = length es -> length Ws = length es -> Forall2 (fun eW V => phase_pdf d (fst eW) (snd eW) g (V g)) (combine es Ws) Vs ->
  total_is d es Ws g (mix (cd_dscale d) (map (fun e => cp_pscale (en_ph e)) es) Vs g).
Proof.
  induction es as [|e es IH]; intros Ws Vs L1 L2 F; destruct Ws as [|W Ws]; try discriminate; destruct Vs as [|V Vs]; try discriminate.
  - reflexivity.
  - cbn [combine] in F. inversion F; subst. cbn [total_is map mix]. exists (V g), (mix (cd_dscale d) (map (fun e => cp_pscale (en_ph e)) es) Vs g). auto.
Qed.
Lemma forall2_len A B (R : A -> B -> Prop) l l' : Forall2 R l l' -> length l = length l'.
Proof. induction 1; simpl; auto. Qed.

Lemma determine_ok d psel : good_grid d -> off_origin d -> good_filter d ->
  (forall e, In e (selected_entries psel) -> up_to_date e /\ sane_phase d (en_ph e)) ->
  let lo := idx d (calc_lo d) in let hi := idx d (calc_hi d) in
  exists Ws f0 V out, Forall2 (found_list d) (selected_entries psel) Ws /\
  (forall g, (lo <= g <= hi)%Z -> total_is d (selected_entries psel) Ws g (V g)) /\
  (cd_qmax d <= 0 -> out = map V (zloop lo hi)) /\ (0 < cd_qmax d -> filtered (cd_qmax d) (cd_deltar d) (map V (zloop lo hi)) out) /\
  length out = Z.to_nat (hi - lo + 1) /\
  forall fuel, (f0 <= fuel)%nat -> determine fuel d psel = Ok (idx d (cd_rfmin d), idx d (cd_rfmax d), repeat (Some 0) (Z.to_nat lo) ++ map Some out).
Proof.
  intros G O GF H lo hi. destruct (determine_lin d G O psel GF H) as (Ws & f0 & Vs & P & T & L & R).
  destruct (R (cd_dscale d) (map (fun e => cp_pscale (en_ph e)) (selected_entries psel))) as (out & X1 & X2 & X3 & X4). rewrite map_length; auto.
  rewrite same_dscale, same_pscales in X4. exists Ws, f0, (mix (cd_dscale d) (map (fun e => cp_pscale (en_ph e)) (selected_entries psel)) Vs), out.
  split; auto. split; auto. intros g Hg. apply mix_total; auto. symmetry. apply (forall2_len _ _ _ _ _ P).
Qed.
