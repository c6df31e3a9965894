(** The quantities of a cell, their deviations, the text. *)
From Coq Require Import Ascii String.
From Coq Require Import List Arith ZArith Reals Bool Lia Lra Psatz.
From Verif Require Import Base MathModel MathProof MetricModel MetricSpec MetricProof DerivCalc CellModel CellSpec CellProof.
From Verif Require Import ParserModel DataModel DataSpec FmtModel OutModel OutSpec OutProof OutPhase.
From Verif Require BondModel BondErr SaveModel BlenProof.
Import ListNotations.
Local Open Scope R_scope.

Lemma plain_fine a w : plain_cell a w -> 0 < gw w -> fine a w.
Proof. intros P G. split; auto. intros k K. destruct (P k K) as [A W]. split; auto. destruct (rad_angle (w k) W). apply sin_gt_0; auto. Qed.
Section Final.
Variables (a0 win da0 dwin : v3) (icc : nat -> Z) (occ docc : list R) (c : cell_t).
Hypothesis PL : plain_cell a0 win.
Hypothesis OK : cell a0 win da0 dwin icc occ docc = Ok c.
Lemma is_fine : fine a0 win.
Proof. apply plain_fine; auto. pose proof (cell_gw _ _ _ _ _ _ _ _ OK). pose proof eps_pos. lra. Qed.
Let S := sqrt (gw win).
Lemma s_pos : 0 < S. Proof. apply sqrt_lt_R0. apply is_fine. Qed.
Lemma s_sq : S * S = gw win. Proof. apply sqrt_sqrt. destruct is_fine. lra. Qed.
Lemma vol_ok : ce_v c = volume a0 win /\ 0 < ce_v c.
Proof.
  rewrite (volume_eq _ _ is_fine), (get_v _ _ _ _ _ _ _ _ OK). pose proof s_pos as SP. unfold S in SP. destruct is_fine as [P _].
  destruct (P 0%nat) as [A0 _]; [lia|]. destruct (P 1%nat) as [A1 _]; [lia|]. destruct (P 2%nat) as [A2 _]; [lia|]. split. ring. repeat apply Rmult_lt_0_compat; auto.
Qed.
Lemma small_u k e : (k < 3)%nat -> Rabs e <= dwin k -> Rabs (m_sind (win k) * (rad * e)) <= Rabs (m_sind (win k) * rad * dwin k).
Proof.
  intros K E. destruct is_fine as [P _]. destruct (P k K) as [_ SK]. pose proof rad_pos. assert (0 < m_sind (win k) * rad) by nra. rewrite <- Rmult_assoc, !Rabs_mult.
  apply Rmult_le_compat_l. apply Rmult_le_pos; apply Rabs_pos. eapply Rle_trans. exact E. apply Rle_abs.
Qed.
Lemma vol_bounds : bounds a0 win da0 dwin volume (ce_dv c).
Proof.
  apply bounds_by with (g := fun a w => a 0%nat * a 1%nat * a 2%nat * sqrt (gw w)). apply is_fine. apply volume_eq.
  intros ea ew H. destruct is_fine as [P G]. destruct (P 0%nat) as [A0 _]; [lia|]. destruct (P 1%nat) as [A1 _]; [lia|]. destruct (P 2%nat) as [A2 _]; [lia|].
  destruct (H 0%nat) as [E0 W0]; [lia|]. destruct (H 1%nat) as [E1 W1]; [lia|]. destruct (H 2%nat) as [E2 W2]; [lia|].
  eexists. split. apply (dvol (a0 0%nat) (a0 1%nat) (a0 2%nat) (win 0%nat) (win 1%nat) (win 2%nat) (ea 0%nat) (ea 1%nat) (ea 2%nat) (ew 0%nat) (ew 1%nat) (ew 2%nat) G).
  rewrite (get_dv _ _ _ _ _ _ _ _ OK). fold (gw win). fold S. apply vol_le; auto using s_pos.
  unfold half_dg, dvoll. apply abs3; apply one_term; apply small_u; auto; lia.
Qed.
Lemma rvol_bounds : ce_vr c = 1 / volume a0 win /\ bounds a0 win da0 dwin (fun a w => 1 / volume a w) (ce_dvr c).
Proof.
  destruct (get_vr _ _ _ _ _ _ _ _ OK) as [E1 E2]. destruct vol_ok as [V VP]. rewrite <- V. split; auto. intros ea ew H. destruct (vol_bounds ea ew H) as (l & L & B).
  assert (Z : volume (moved a0 ea 0) (moved win ew 0) = ce_v c).
  { rewrite V. unfold volume, det33, metric, cell_cos, moved. cbn [Nat.eqb Nat.add]. rewrite !Rmult_0_l, !Rplus_0_r. reflexivity. }
  eexists. split.
  - apply (ddv (fun _ => 1) (fun s => volume (moved a0 ea s) (moved win ew s))). rewrite Z. lra. apply derivable_pt_lim_const. exact L.
  - cbv beta. rewrite Z, E2. match goal with |- Rabs ?x <= _ => replace x with (1 / (ce_v c * ce_v c) * (- l)) by (field; lra) end.
    assert (0 < 1 / (ce_v c * ce_v c)) by (apply Rdiv_lt_0_compat; nra). rewrite Rabs_mult, (Rabs_right (1 / (ce_v c * ce_v c))), Rabs_Ropp by lra. apply Rmult_le_compat_l; lra.
Qed.
Lemma edge_value i : (i < 3)%nat -> ce_ar c i = redge i a0 win.
Proof.
  intros I. rewrite (redge_eq i a0 win I is_fine), (get_ar _ _ _ _ _ _ _ _ OK), (get_v _ _ _ _ _ _ _ _ OK). pose proof s_pos as SP. unfold S in SP. destruct is_fine as [P G].
  destruct (P 0%nat) as [A0 _]; [lia|]. destruct (P 1%nat) as [A1 _]; [lia|]. destruct (P 2%nat) as [A2 _]; [lia|].
  destruct (lt3 i I) as [-> | [-> | ->]]; cbn [j1 j2 Nat.add Nat.modulo Nat.divmod fst snd Nat.sub]; field; lra.
Qed.
Lemma gram_le i : (i < 3)%nat -> S * S <= m_sind (win i) * m_sind (win i).
Proof.
  intros I. rewrite s_sq, <- (gw_rot win i I), gram_sq. pose proof (sincosd (win i)) as E. pose proof (sincosd (win (j1 i))) as E1.
  set (t := m_cosd (win i) * m_cosd (win (j1 i)) - m_cosd (win (j2 i))). pose proof (Rle_0_sqr t). unfold Rsqr in *. pose proof (Rle_0_sqr (m_cosd (win (j1 i)))). pose proof (Rle_0_sqr (m_sind (win i))). unfold Rsqr in *.
  replace (1 - m_cosd (win i) * m_cosd (win i)) with (m_sind (win i) * m_sind (win i)) by lra. nra.
Qed.
Lemma edge_bounds i : (i < 3)%nat -> bounds a0 win da0 dwin (redge i) (ce_dar c i).
Proof.
  intros I. assert (I1 : (j1 i < 3)%nat) by (apply Nat.mod_upper_bound; lia). assert (I2 : (j2 i < 3)%nat) by (apply Nat.mod_upper_bound; lia).
  apply bounds_by with (g := fun a w => m_sind (w i) / (a i * sqrt (gram (m_cosd (w i)) (m_cosd (w (j1 i))) (m_cosd (w (j2 i)))))). apply is_fine.
  { intros a w F. rewrite gw_rot by auto. apply redge_eq; auto. }
  intros ea ew H. destruct is_fine as [P G]. destruct (P _ I) as [A SI]. destruct (P _ I1) as [B _]. destruct (P _ I2) as [C _].
  destruct (H _ I) as [EA EW]. destruct (H _ I1) as [EA1 EW1]. destruct (H _ I2) as [EA2 EW2].
  assert (GI : 0 < gram (m_cosd (win i)) (m_cosd (win (j1 i))) (m_cosd (win (j2 i)))) by (rewrite gw_rot; auto).
  eexists. split. apply (dedge (a0 i) (win i) (win (j1 i)) (win (j2 i)) (ea i) (ew i) (ew (j1 i)) (ew (j2 i)) A GI).
  rewrite gw_rot by auto. fold S. pose proof rad_pos as RP. assert (DW : 0 <= dwin i) by (pose proof (Rabs_pos (ew i)); lra).
  assert (U : Rabs (rad * ew i) <= rad * dwin i) by (rewrite Rabs_mult, (Rabs_right rad) by lra; apply Rmult_le_compat_l; lra).
  set (cx := m_cosd (win i)) in *. set (cy := m_cosd (win (j1 i))) in *. set (cz := m_cosd (win (j2 i))) in *.
  set (Dy := Rabs (m_sind (win (j1 i)) * rad * dwin (j1 i))). set (Dz := Rabs (m_sind (win (j2 i)) * rad * dwin (j2 i))).
  assert (RB : Rabs (m_sind (win (j1 i)) * (rad * ew (j1 i)) * (cy - cx * cz) + m_sind (win (j2 i)) * (rad * ew (j2 i)) * (cz - cx * cy)) <= Dy * (Rabs cy + Rabs cx * Rabs cz) + Dz * (Rabs cz + Rabs cx * Rabs cy)).
  { eapply Rle_trans. apply Rabs_triang. apply Rplus_le_compat; apply one_term; apply small_u; auto. }
  assert (DB : 0 <= da0 (j1 i)) by (pose proof (Rabs_pos (ea (j1 i))); lra). assert (DC : 0 <= da0 (j2 i)) by (pose proof (Rabs_pos (ea (j2 i))); lra).
  assert (TT : Rabs (cy * cz) <= Rabs cy * Rabs cz) by (rewrite Rabs_mult; lra).
  pose proof (edge_le (a0 i) (a0 (j1 i)) (a0 (j2 i)) S (S * S) cx (m_sind (win i)) (cy * cz) (rad * ew i) _ (da0 i) (da0 (j1 i)) (da0 (j2 i)) (rad * dwin i) _ (ea i) A B C s_pos eq_refl SI (gram_le i I) EA DB DC U RB _ TT) as Q.
  unfold half_dg. fold cx cy cz. rewrite (get_dar _ _ _ _ _ _ _ _ OK), (get_dv _ _ _ _ _ _ _ _ OK), (get_v _ _ _ _ _ _ _ _ OK). fold S.
  assert (DX : Rabs (m_sind (win i) * rad * dwin i) = m_sind (win i) * rad * dwin i) by (apply Rabs_right, Rle_ge, Rmult_le_pos; [nra|auto]).
  assert (DV : dvoll win dwin = m_sind (win i) * (rad * dwin i) * (Rabs cx + Rabs cy * Rabs cz) + (Dy * (Rabs cy + Rabs cx * Rabs cz) + Dz * (Rabs cz + Rabs cx * Rabs cy))).
  { rewrite <- Rmult_assoc, <- DX. unfold dvoll, Dy, Dz, cx, cy, cz. destruct (lt3 i I) as [-> | [-> | ->]]; cbn [j1 j2 Nat.add Nat.modulo Nat.divmod fst snd Nat.sub]; ring. }
  rewrite DV.
  match type of Q with Rabs ?l <= ?r => match goal with |- Rabs ?l' <= ?r' => replace l' with l; [replace r' with r|] end end. exact Q.
  - clear - A B C I OK PL. pose proof s_pos as SP. fold cx. destruct (lt3 i I) as [-> | [-> | ->]]; cbn [j1 j2 Nat.add Nat.modulo Nat.divmod fst snd Nat.sub] in *; field; lra.
  - f_equal. f_equal. f_equal. ring.
Qed.
Lemma rten_bounds i : (i < 3)%nat -> ce_rten c i i = rmetric a0 win i i /\ bounds a0 win da0 dwin (fun a w => rmetric a w i i) (ce_drten c i i).
Proof.
  intros I. assert (SQ : forall a w, fine a w -> rmetric a w i i = redge i a w * redge i a w).
  { intros a w F. unfold redge. symmetry. apply sqrt_sqrt. destruct (Rle_dec 0 (rmetric a w i i)) as [|N]; auto. exfalso.
    assert (Z : redge i a w = 0) by (unfold redge; apply sqrt_neg_0; lra). rewrite (redge_eq i a w I F) in Z. destruct F as [P G]. destruct (P i I) as [A SI]. pose proof (sqrt_lt_R0 _ G).
    assert (0 < m_sind (w i) / (a i * sqrt (gw w))) by (apply Rdiv_lt_0_compat; nra). lra. }
  assert (EP : 0 < redge i a0 win).
  { rewrite (redge_eq i a0 win I is_fine). destruct is_fine as [P G]. destruct (P i I) as [A SI]. pose proof (sqrt_lt_R0 _ G). apply Rdiv_lt_0_compat; nra. }
  destruct (get_lattice _ _ _ _ _ _ _ _ OK) as (l & L & _ & AR & WR & _ & RT). destruct (get_dtens _ _ _ _ _ _ _ _ OK) as [_ DR]. split.
  - rewrite (SQ _ _ is_fine), <- (edge_value i I), RT. assert (RL : l_rten l = tensor (l_ar l) (l_wrez l)) by (rewrite lattice_spec in L; destruct (Rle_dec _ _); inversion L; auto).
    rewrite RL, AR. unfold tensor. rewrite Nat.eqb_refl. reflexivity.
  - apply bounds_by with (g := fun a w => redge i a w * redge i a w). apply is_fine. apply SQ. intros ea ew H. destruct (edge_bounds i I ea ew H) as (k & K & B). eexists. split.
    + apply (dm (fun s => redge i (moved a0 ea s) (moved win ew s)) (fun s => redge i (moved a0 ea s) (moved win ew s))); exact K.
    + cbv beta. assert (Z : redge i (moved a0 ea 0) (moved win ew 0) = redge i a0 win).
      { unfold redge, rmetric, det33, metric, cell_cos, moved. rewrite !Rmult_0_l, !Rplus_0_r. cbn [Nat.eqb Nat.add]. destruct (lt3 i I) as [-> | [-> | ->]]; cbn [Nat.add Nat.modulo Nat.divmod fst snd Nat.sub Nat.eqb]; rewrite ?Rmult_0_l, ?Rplus_0_r; reflexivity. }
      rewrite Z, DR. unfold BondModel.dtensor. rewrite Nat.eqb_refl, (edge_value i I). replace (k * redge i a0 win + redge i a0 win * k) with (2 * redge i a0 win * k) by ring.
      rewrite Rabs_mult, (Rabs_right (2 * redge i a0 win)) by lra. replace (ce_dar c i * redge i a0 win + redge i a0 win * ce_dar c i) with (2 * redge i a0 win * ce_dar c i) by ring. apply Rmult_le_compat_l; lra.
Qed.
Lemma angle_value i : (i < 3)%nat -> ce_wrez c i = rangle i a0 win.
Proof. intros I. rewrite (rangle_eq i a0 win I is_fine), (get_wrez _ _ _ _ _ _ _ _ OK). unfold m_acosd, carg_of, carg, rad. unfold Rdiv. pose proof PI_RGT_0. field. lra. Qed.
Lemma rangle_obtuse i : (i < 3)%nat -> 90 <= rangle i a0 win -> m_cosd (win (j1 i)) * m_cosd (win (j2 i)) - m_cosd (win i) <= 0.
Proof.
  intros I. rewrite (rangle_eq i a0 win I is_fine). destruct is_fine as [P G].
  assert (I1 : (j1 i < 3)%nat) by (apply Nat.mod_upper_bound; lia). assert (I2 : (j2 i < 3)%nat) by (apply Nat.mod_upper_bound; lia).
  destruct (P _ I1) as [_ S1]. destruct (P _ I2) as [_ S2]. fold (carg (win i) (win (j1 i)) (win (j2 i))).
  assert (CI : -1 < carg (win i) (win (j1 i)) (win (j2 i)) < 1) by (apply carg_in; auto; rewrite gw_rot; auto).
  intros L. pose proof PI_RGT_0 as PP. assert (Q : carg (win i) (win (j1 i)) (win (j2 i)) <= 0).
  { rewrite <- (cos_acos (carg (win i) (win (j1 i)) (win (j2 i)))) by lra. pose proof (acos_bound (carg (win i) (win (j1 i)) (win (j2 i)))) as B. set (u := acos (carg (win i) (win (j1 i)) (win (j2 i)))) in *.
    assert (PI / 2 <= u). { apply Rmult_le_reg_l with (180 / PI). apply Rdiv_lt_0_compat; lra. replace (180 / PI * (PI / 2)) with 90 by (field; lra). auto. }
    apply cos_le_0; lra. }
  unfold carg in Q. assert (SS : 0 < m_sind (win (j1 i)) * m_sind (win (j2 i))) by nra. apply Rmult_le_compat_r with (r := m_sind (win (j1 i)) * m_sind (win (j2 i))) in Q; [|lra].
  unfold Rdiv in Q. rewrite Rmult_assoc, Rinv_l, Rmult_1_r, Rmult_0_l in Q by lra. exact Q.
Qed.
Lemma angle_bounds i : (i < 3)%nat -> (dwin (j1 i) = 0 \/ 90 <= rangle (j2 i) a0 win) -> (dwin (j2 i) = 0 \/ 90 <= rangle (j1 i) a0 win) ->
  bounds a0 win da0 dwin (rangle i) (ce_dwrez c i).
Proof.
  intros I O1 O2. assert (I1 : (j1 i < 3)%nat) by (apply Nat.mod_upper_bound; lia). assert (I2 : (j2 i < 3)%nat) by (apply Nat.mod_upper_bound; lia).
  eapply bounds_by. apply is_fine. intros a w F. apply rangle_eq; auto.
  intros ea ew H. destruct is_fine as [P G]. destruct (P _ I) as [_ SI]. destruct (P _ I1) as [_ S1]. destruct (P _ I2) as [_ S2].
  destruct (H _ I) as [_ EW]. destruct (H _ I1) as [_ EW1]. destruct (H _ I2) as [_ EW2].
  assert (GI : 0 < gram (m_cosd (win i)) (m_cosd (win (j1 i))) (m_cosd (win (j2 i)))) by (rewrite gw_rot; auto).
  eexists. split. apply (dangle (win i) (win (j1 i)) (win (j2 i)) (ew i) (ew (j1 i)) (ew (j2 i)) GI S1 S2).
  rewrite (get_dwrez _ _ _ _ _ _ _ _ OK). unfold carg_of. pose proof (carg_in _ _ _ GI S1 S2) as CI. set (A := carg (win i) (win (j1 i)) (win (j2 i))) in *.
  assert (QP : 0 < sqrt (1 - A * A)) by (apply sqrt_lt_R0; nra). set (q := sqrt (1 - A * A)) in *. pose proof rad_pos as RP. pose proof PI_RGT_0 as PP.
  set (cx := m_cosd (win i)) in *. set (cy := m_cosd (win (j1 i))) in *. set (cz := m_cosd (win (j2 i))) in *. set (sx := m_sind (win i)) in *. set (sy := m_sind (win (j1 i))) in *. set (sz := m_sind (win (j2 i))) in *.
  set (X := sx / (sy * sz)). set (Py := cz / sz + A * cy / sy). set (Pz := cy / sy + A * cz / sz).
  assert (XP : 0 < X) by (apply Rdiv_lt_0_compat; nra).
  assert (YP : dwin (j1 i) = 0 \/ 0 <= Py).
  { destruct O1 as [Z|L]; auto. right. apply rangle_obtuse in L; auto. assert (E : m_cosd (win (j1 (j2 i))) * m_cosd (win (j2 (j2 i))) - m_cosd (win (j2 i)) = cx * cy - cz).
    { unfold cx, cy, cz. destruct (lt3 i I) as [-> | [-> | ->]]; cbn [j1 j2 Nat.add Nat.modulo Nat.divmod fst snd Nat.sub]; ring. }
    rewrite E in L. assert (Y : Py = (cz - cx * cy) / (sy * sy * sz)).
    { unfold Py, A, carg. fold cx cy cz sx sy sz. pose proof (sincosd (win (j1 i))) as SC. fold sy cy in SC. transitivity ((cz * (sy * sy + cy * cy) - cx * cy) / (sy * sy * sz)). field. lra. rewrite SC. f_equal. ring. }
    rewrite Y. apply Rmult_le_pos; [lra|]. apply Rlt_le, Rinv_0_lt_compat. assert (0 < sy * sy) by nra. nra. }
  assert (ZP : dwin (j2 i) = 0 \/ 0 <= Pz).
  { destruct O2 as [Z|L]; auto. right. apply rangle_obtuse in L; auto. assert (E : m_cosd (win (j1 (j1 i))) * m_cosd (win (j2 (j1 i))) - m_cosd (win (j1 i)) = cx * cz - cy).
    { unfold cx, cy, cz. destruct (lt3 i I) as [-> | [-> | ->]]; cbn [j1 j2 Nat.add Nat.modulo Nat.divmod fst snd Nat.sub]; ring. }
    rewrite E in L. assert (Y : Pz = (cy - cx * cz) / (sz * sz * sy)).
    { unfold Pz, A, carg. fold cx cy cz sx sy sz. pose proof (sincosd (win (j2 i))) as SC. fold sz cz in SC. transitivity ((cy * (sz * sz + cz * cz) - cx * cz) / (sz * sz * sy)). field. lra. rewrite SC. f_equal. ring. }
    rewrite Y. apply Rmult_le_pos; [lra|]. apply Rlt_le, Rinv_0_lt_compat. assert (0 < sz * sz) by nra. nra. }
  replace (180 / PI * (-1 / q) * (rad * (ew i * sx / (sy * sz) - ew (j1 i) * Py - ew (j2 i) * Pz))) with (1 / q * - (ew i * X - ew (j1 i) * Py - ew (j2 i) * Pz)) by (unfold rad, X; field; lra).
  match goal with |- _ <= ?r => replace r with (1 / q * (dwin i * X + dwin (j1 i) * Py + dwin (j2 i) * Pz)) end.
  2:{ unfold X, Py, Pz. field. lra. }
  assert (0 < 1 / q) by (apply Rdiv_lt_0_compat; lra). rewrite Rabs_mult, (Rabs_right (1 / q)), Rabs_Ropp by lra. apply Rmult_le_compat_l; [lra|].
  assert (T : forall e d p, Rabs e <= d -> d = 0 \/ 0 <= p -> Rabs (e * p) <= d * p).
  { intros e d p E [-> | N]. assert (e = 0) as -> by (destruct (Req_dec e 0) as [|NE]; auto; pose proof (Rabs_pos_lt e NE); lra). rewrite !Rmult_0_l, Rabs_R0. lra.
    rewrite Rabs_mult, (Rabs_right p) by lra. apply Rmult_le_compat_r; auto. }
  pose proof (T _ _ X EW ltac:(right; lra)). pose proof (T _ _ Py EW1 YP). pose proof (T _ _ Pz EW2 ZP).
  pose proof (abs_sub (ew i * X - ew (j1 i) * Py) (ew (j2 i) * Pz)). pose proof (abs_sub (ew i * X) (ew (j1 i) * Py)). lra.
Qed.
(** * deviations that are attained *)
Hypothesis DA : forall k, (k < 3)%nat -> 0 <= da0 k /\ 0 <= dwin k.
Lemma attained_by f g d : (forall a w, fine a w -> f a w = g a w) -> attained a0 win da0 dwin g d -> attained a0 win da0 dwin f d.
Proof.
  intros E (ea & ew & H & L). exists ea, ew. split; auto. destruct (near_fine a0 win ea ew is_fine) as (e & EP & N).
  eapply dl_local; [exact EP| |exact L]. intros s S0. symmetry. cbv beta. apply E. apply N. auto.
Qed.
Lemma within k : (k < 3)%nat -> Rabs (da0 k) <= da0 k /\ Rabs (- dwin k) <= dwin k /\ Rabs (dwin k) <= dwin k /\ Rabs (- da0 k) <= da0 k.
Proof. intros K. destruct (DA k K). rewrite !Rabs_Ropp, !Rabs_right by lra. lra. Qed.
Lemma cos_obtuse k : (k < 3)%nat -> 90 <= win k -> m_cosd (win k) <= 0.
Proof. intros K L. destruct (PL k K) as [_ W]. pose proof PI_RGT_0. unfold m_cosd, rad. apply cos_le_0; nra. Qed.
Lemma vol_attained : (forall k, (k < 3)%nat -> 90 <= win k) -> attained a0 win da0 dwin volume (ce_dv c).
Proof.
  intros O. apply attained_by with (g := fun a w => a 0%nat * a 1%nat * a 2%nat * sqrt (gw w)). apply volume_eq.
  exists da0, (fun k => - dwin k). split. intros k K. destruct (within k K) as (? & ? & _). auto.
  destruct is_fine as [P G]. eapply dl_eq. apply (dvol (a0 0%nat) (a0 1%nat) (a0 2%nat) (win 0%nat) (win 1%nat) (win 2%nat) (da0 0%nat) (da0 1%nat) (da0 2%nat) (- dwin 0%nat) (- dwin 1%nat) (- dwin 2%nat) G).
  rewrite (get_dv _ _ _ _ _ _ _ _ OK). fold (gw win). fold S. pose proof s_pos as SP. pose proof rad_pos as RP.
  assert (D : half_dg (win 0%nat) (win 1%nat) (win 2%nat) (- dwin 0%nat) (- dwin 1%nat) (- dwin 2%nat) = dvoll win dwin).
  { unfold half_dg, dvoll. pose proof (cos_obtuse 0%nat ltac:(lia) (O 0%nat ltac:(lia))). pose proof (cos_obtuse 1%nat ltac:(lia) (O 1%nat ltac:(lia))). pose proof (cos_obtuse 2%nat ltac:(lia) (O 2%nat ltac:(lia))).
    assert (SN : forall k, (k < 3)%nat -> Rabs (m_sind (win k) * rad * dwin k) = m_sind (win k) * rad * dwin k).
    { intros k K. destruct (DA k K). destruct (P k K). apply Rabs_right, Rle_ge, Rmult_le_pos; [nra|auto]. }
    rewrite !SN by lia. rewrite !(Rabs_left1 (m_cosd (win _))) by lra. ring. }
  rewrite D. field. lra.
Qed.
Lemma edge_attained i : (i < 3)%nat -> (forall k, (k < 3)%nat -> dwin k = 0 /\ (k <> i -> da0 k = 0)) -> attained a0 win da0 dwin (redge i) (ce_dar c i).
Proof.
  intros I Z. assert (I1 : (j1 i < 3)%nat) by (apply Nat.mod_upper_bound; lia). assert (I2 : (j2 i < 3)%nat) by (apply Nat.mod_upper_bound; lia).
  assert (N1 : j1 i <> i) by (destruct (lt3 i I) as [-> | [-> | ->]]; discriminate). assert (N2 : j2 i <> i) by (destruct (lt3 i I) as [-> | [-> | ->]]; discriminate).
  apply attained_by with (g := fun a w => m_sind (w i) / (a i * sqrt (gram (m_cosd (w i)) (m_cosd (w (j1 i))) (m_cosd (w (j2 i)))))).
  { intros a w F. rewrite gw_rot by auto. apply redge_eq; auto. }
  exists (fun k => - da0 k), dwin. split. intros k K. destruct (within k K) as (? & ? & ? & ?). auto.
  destruct is_fine as [P G]. destruct (P _ I) as [A SI]. destruct (P _ I1) as [B _]. destruct (P _ I2) as [C _].
  assert (GI : 0 < gram (m_cosd (win i)) (m_cosd (win (j1 i))) (m_cosd (win (j2 i)))) by (rewrite gw_rot; auto).
  eapply dl_eq. apply (dedge (a0 i) (win i) (win (j1 i)) (win (j2 i)) (- da0 i) (dwin i) (dwin (j1 i)) (dwin (j2 i)) A GI).
  rewrite gw_rot by auto. fold S. pose proof s_pos as SP. rewrite (get_dar _ _ _ _ _ _ _ _ OK), (get_dv _ _ _ _ _ _ _ _ OK), (get_v _ _ _ _ _ _ _ _ OK). fold S.
  destruct (Z _ I) as [W _]. destruct (Z _ I1) as [W1 B1]. destruct (Z _ I2) as [W2 B2]. specialize (B1 N1). specialize (B2 N2).
  assert (V0 : dvoll win dwin = 0). { unfold dvoll. rewrite (proj1 (Z 0%nat ltac:(lia))), (proj1 (Z 1%nat ltac:(lia))), (proj1 (Z 2%nat ltac:(lia))), !Rmult_0_r, !Rabs_R0. ring. }
  unfold half_dg. rewrite V0, W, W1, W2, B1, B2. clear - A B C SP I B1 B2.
  destruct (lt3 i I) as [-> | [-> | ->]]; cbn [j1 j2 Nat.add Nat.modulo Nat.divmod fst snd Nat.sub] in *; rewrite ?B1, ?B2; field; lra.
Qed.
Lemma angle_attained i : (i < 3)%nat -> attained a0 win da0 dwin (rangle i) (ce_dwrez c i).
Proof.
  intros I. assert (I1 : (j1 i < 3)%nat) by (apply Nat.mod_upper_bound; lia). assert (I2 : (j2 i < 3)%nat) by (apply Nat.mod_upper_bound; lia).
  assert (N1 : j1 i <> i) by (destruct (lt3 i I) as [-> | [-> | ->]]; discriminate). assert (N2 : j2 i <> i) by (destruct (lt3 i I) as [-> | [-> | ->]]; discriminate).
  eapply attained_by. intros a w F. apply rangle_eq; auto.
  exists da0, (fun k => if (k =? i)%nat then - dwin k else dwin k). split. { intros k K. destruct (within k K) as (? & ? & ? & ?). destruct (k =? i)%nat; auto. }
  destruct is_fine as [P G]. destruct (P _ I) as [_ SI]. destruct (P _ I1) as [_ S1]. destruct (P _ I2) as [_ S2].
  assert (GI : 0 < gram (m_cosd (win i)) (m_cosd (win (j1 i))) (m_cosd (win (j2 i)))) by (rewrite gw_rot; auto).
  eapply dl_eq.
  - unfold moved. rewrite Nat.eqb_refl, (proj2 (Nat.eqb_neq _ _) N1), (proj2 (Nat.eqb_neq _ _) N2). apply (dangle (win i) (win (j1 i)) (win (j2 i)) (- dwin i) (dwin (j1 i)) (dwin (j2 i)) GI S1 S2).
  - rewrite (get_dwrez _ _ _ _ _ _ _ _ OK). unfold carg_of. pose proof (carg_in _ _ _ GI S1 S2) as CI. set (A := carg (win i) (win (j1 i)) (win (j2 i))) in *.
    assert (QP : 0 < sqrt (1 - A * A)) by (apply sqrt_lt_R0; nra). set (q := sqrt (1 - A * A)) in *. pose proof PI_RGT_0 as PP. unfold rad. field. repeat split; lra.
Qed.
(** * density *)
Lemma sum_total l : fold_left Rplus l 0 = total l.
Proof.
  assert (G : forall l x, fold_left Rplus l x = x + total l). { induction l0 as [|y l0 IH]; intros x; cbn [fold_left total fold_right]. ring. rewrite IH. unfold total. ring. }
  rewrite G. ring.
Qed.
Lemma density_value : (forall k, (k < 3)%nat -> (1 <= icc k)%Z) -> ce_rho0 c * (ncells icc * volume a0 win) = total occ.
Proof.
  intros B. rewrite (proj1 (get_rho _ _ _ _ _ _ _ _ OK)), sum_total. destruct vol_ok as [V VP]. rewrite <- V. unfold ncells.
  assert (N : 0 < IZR (icc 0%nat * icc 1%nat * icc 2%nat)). { apply IZR_lt. pose proof (B 0%nat ltac:(lia)). pose proof (B 1%nat ltac:(lia)). pose proof (B 2%nat ltac:(lia)). nia. }
  field. lra.
Qed.
Lemma density_dev : (forall k, (k < 3)%nat -> (1 <= icc k)%Z) -> exists p q,
  derivable_pt_lim (fun n => n / (ncells icc * volume a0 win)) (total occ) p /\ derivable_pt_lim (fun v => total occ / (ncells icc * v)) (volume a0 win) q /\
  ce_drho0 c = ncells icc * sqrt ((p * total docc) ^ 2 + (q * ce_dv c) ^ 2).
Proof.
  intros B. destruct vol_ok as [V VP]. rewrite <- V. assert (N : 0 < ncells icc). { apply IZR_lt. pose proof (B 0%nat ltac:(lia)). pose proof (B 1%nat ltac:(lia)). pose proof (B 2%nat ltac:(lia)). nia. }
  exists (1 / (ncells icc * ce_v c)), (- total occ / (ncells icc * (ce_v c * ce_v c))). split; [|split].
  - eapply dl_eq. apply (dmc (/ (ncells icc * ce_v c)) (fun n => n)). apply did. field. lra.
  - eapply dl_eq. apply (ddv (fun _ => total occ) (fun v => ncells icc * v)). nra. apply derivable_pt_lim_const. apply dcm. apply did. field. lra.
  - rewrite (proj2 (get_rho _ _ _ _ _ _ _ _ OK)), !sum_total. rewrite <- (sqrt_square (ncells icc)) at 1 by lra. rewrite <- sqrt_mult_alt by nra. f_equal. unfold m_sqr. field. lra.
Qed.
End Final.

(** * the text *)
Lemma pair_ok x dx : vstd_ok (pair_of x dx).
Proof. split; cbn; apply BlenProof.dbl_of_ok. Qed.
Lemma row3 s (x dx : v3) : row_says (s, [(x 0%nat, dx 0%nat); (x 1%nat, dx 1%nat); (x 2%nat, dx 2%nat)]) (chars s ++ three x dx) /\ (one_line (chars s) -> one_line (chars s ++ three x dx)).
Proof.
  split.
  - exists (three x dx). split. apply strip_app. unfold three. rewrite put3_row.
    match goal with |- Forall2 _ (values (words (row ?fs))) _ => destruct (row_values fs) as (_ & ws & W & V & _) end;
    [repeat (constructor; [split; [reflexivity|apply pair_ok]|]); constructor|repeat constructor|]. rewrite W. exact V.
  - intros O. apply one_app. split; auto. apply put3_line. intros. apply pair_ok.
Qed.
Lemma row1 s x dx : row_says (s, [(x, dx)]) (chars s ++ put f_last (pair_of x dx)) /\ (one_line (chars s) -> one_line (chars s ++ put f_last (pair_of x dx))).
Proof.
  split.
  - exists (put f_last (pair_of x dx)). split. apply strip_app. rewrite put_row.
    match goal with |- Forall2 _ (values (words (row ?fs))) _ => destruct (row_values fs) as (_ & ws & W & V & _) end;
    [repeat (constructor; [split; [reflexivity|apply pair_ok]|]); constructor|repeat constructor|]. rewrite W. exact V.
  - intros O. apply one_app. split; auto. apply put_line; auto. apply pair_ok.
Qed.

Lemma lattice_text n name a0 win da0 dwin c : one_line name ->
  exists r1 r2, lines (show_lattice n name a0 win da0 dwin c) =
    [chars " Phase number           : " ++ int_text n; chars " Phase title            : " ++ name; []] ++ r1 ++ [[]] ++ r2 ++ [[]] /\
    Forall2 row_says (cell_rows a0 da0 win dwin (ce_v c) (ce_dv c) (ce_rho0 c) (ce_drho0 c) (ce_gten c) (ce_dgten c)) r1 /\
    Forall2 row_says (recip_rows (ce_ar c) (ce_dar c) (ce_wrez c) (ce_dwrez c) (ce_vr c) (ce_dvr c) (ce_rten c) (ce_drten c)) r2.
Proof.
  intros N. unfold show_lattice, tensor_lines. rewrite <- !app_assoc.
  exists [chars " Lattice parameters     :" ++ three a0 da0; chars "           & angles     :" ++ three win dwin;
    chars " Unit cell volume       :" ++ put f_last (pair_of (ce_v c) (ce_dv c)); chars " Number density         :" ++ put f_last (pair_of (ce_rho0 c) (ce_drho0 c));
    chars " Metric tensor          :" ++ three (fun i => ce_gten c i 0%nat) (fun i => ce_dgten c i 0%nat);
    chars "                         " ++ three (fun i => ce_gten c i 1%nat) (fun i => ce_dgten c i 1%nat); chars "                         " ++ three (fun i => ce_gten c i 2%nat) (fun i => ce_dgten c i 2%nat)],
   [chars " Recip. lat. parameters :" ++ three (ce_ar c) (ce_dar c); chars "               & angles :" ++ three (ce_wrez c) (ce_dwrez c);
    chars " Recip. unit cell vol.  :" ++ put f_last (pair_of (ce_vr c) (ce_dvr c));
    chars " Recip. metric tensor   :" ++ three (fun i => ce_rten c i 0%nat) (fun i => ce_drten c i 0%nat);
    chars "                         " ++ three (fun i => ce_rten c i 1%nat) (fun i => ce_drten c i 1%nat); chars "                         " ++ three (fun i => ce_rten c i 2%nat) (fun i => ce_drten c i 2%nat)].
  assert (NIL : one_line []) by (intros []).
  assert (R3 : forall s x dx, one_line (chars s) -> one_line (chars s ++ three x dx)) by (intros s x dx; apply row3).
  assert (R1 : forall s x dx, one_line (chars s) -> one_line (chars s ++ put f_last (pair_of x dx))) by (intros s x dx; apply row1).
  split; [|split].
  - match goal with |- _ = ?l => assert (F : Forall one_line l); [|etransitivity; [|exact (eq_trans (lines_many l [] F) (app_nil_r l))]] end.
    + repeat constructor; try exact NIL; try (apply R3; apply one_chars; reflexivity); try (apply R1; apply one_chars; reflexivity).
      * apply one_app. split. apply one_chars; reflexivity. apply word_line, int_text_word.
      * apply one_app. split; auto. apply one_chars; reflexivity.
    + f_equal. cbn [app map concat]. rewrite <- !app_assoc, ?app_nil_r. reflexivity.
  - unfold cell_rows, trow. repeat (constructor; [first [apply row3 | apply row1
      | apply (row3 _ (fun i => ce_gten c i 0%nat) (fun i => ce_dgten c i 0%nat)) | apply (row3 _ (fun i => ce_gten c i 1%nat) (fun i => ce_dgten c i 1%nat)) | apply (row3 _ (fun i => ce_gten c i 2%nat) (fun i => ce_dgten c i 2%nat))]|]); constructor.
  - unfold recip_rows, trow. repeat (constructor; [first [apply row3 | apply row1
      | apply (row3 _ (fun i => ce_rten c i 0%nat) (fun i => ce_drten c i 0%nat)) | apply (row3 _ (fun i => ce_rten c i 1%nat) (fun i => ce_drten c i 1%nat)) | apply (row3 _ (fun i => ce_rten c i 2%nat) (fun i => ce_drten c i 2%nat))]|]); constructor.
Qed.
