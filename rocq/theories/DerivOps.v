(** One phase: the derivative of its share of the PDF and what the code makes of the row. *)
From Coq Require Import List Arith ZArith Reals Bool Lia Lra.
From Verif Require Import Base RSum MathModel ParserDeriv MathProof MetricModel MetricSpec MetricProof SphereModel PdfModel PdfSpec PdfProof PdfGeo PdfSum PdfPeak PdfPhase PdfTotal LayoutModel LayoutSpec LayoutProof DerivModel DerivSpec DerivRow DerivPair DerivCalc DerivPeak DerivGeo DerivSetup DerivPhase.
Import ListNotations.
Local Open Scope R_scope.

Lemma leffect_none v l x : (forall e, In e l -> fst e <> v) -> leffect v l x = x.
Proof.
  revert x. induction l as [|a l IH]; intros x H; auto. cbn [leffect fold_left]. destruct (veqb (fst a) v) eqn:Q. apply veqb_eq in Q. exfalso. apply (H a (or_introl eq_refl) Q).
  apply IH. intros; apply H; right; auto.
Qed.
Lemma leffect_once {B} (key : B -> nat) v (f : B -> list (rvar * (num -> num))) b : forall l, NoDup (map key l) -> In b l ->
  (forall c, In c l -> key c <> key b -> forall x, leffect v (f c) x = x) -> forall x, leffect v (flat_map f l) x = leffect v (f b) x.
Proof.
  induction l as [|a l IH]; intros ND I H x; [destruct I|]. cbn [flat_map map] in *. rewrite leffect_app. inversion ND; subst. destruct I as [->|I].
  - assert (E : forall l', (forall c, In c l' -> In c l) -> forall x, leffect v (flat_map f l') x = x).
    { induction l' as [|c l' IH']; intros S y; auto. cbn [flat_map]. rewrite leffect_app, H. apply IH'. intros; apply S; right; auto.
      right. apply S. left; auto. intros Q. apply H2. rewrite <- Q. apply in_map. apply S. left; auto. }
    apply E. auto.
  - rewrite (H a (or_introl eq_refl)). apply IH; auto. intros; apply H; auto; right; auto. intros Q. apply H2. rewrite Q. apply in_map. auto.
Qed.
Lemma leffect_skip {B} v (f : B -> list (rvar * (num -> num))) : forall l, (forall c, In c l -> forall x, leffect v (f c) x = x) -> forall x, leffect v (flat_map f l) x = x.
Proof. induction l as [|a l IH]; intros H x; auto. cbn [flat_map]. rewrite leffect_app, (H a (or_introl eq_refl)). apply IH. intros; apply H; right; auto. Qed.
Lemma af_ok_iff f : atom_field_ok f -> af_ok f = true.
Proof. destruct f; cbn [af_ok pf_ok atom_field_ok phase_field_ok]; auto; intros H; apply Nat.ltb_lt; auto. Qed.
Lemma pf_ok_iff f : phase_field_ok f -> pf_ok f = true.
Proof. destruct f; cbn [af_ok pf_ok atom_field_ok phase_field_ok]; auto; intros H; apply Nat.ltb_lt; auto. Qed.

Lemma pick_atom_vars ip i ia f fs x : af_ok f = true -> length fs = 10%nat -> leffect (AV ip ia f) (combine (atom_vars ip i) fs) x = if (i =? ia)%nat then nth (af_no f) fs nop x else x.
Proof.
  intros F L. do 10 (destruct fs as [|? fs]; [discriminate|]). destruct fs; [|discriminate]. unfold leffect, atom_vars, at_fields. cbn [map].
  destruct f as [k|k|]; cbn [af_ok] in F; [destruct k as [|[|[|k]]]|destruct k as [|[|[|[|[|[|k]]]]]]|]; try (exfalso; cbn in F; discriminate F); clear F;
    cbn [combine fold_left fst snd veqb af_eqb Nat.eqb andb af_no]; rewrite Nat.eqb_refl; cbn [andb]; cbn [Nat.add nth]; destruct (i =? ia)%nat; reflexivity.
Qed.
Lemma pick_own_vars ip f fs x : pf_ok f = true -> length fs = 11%nat -> leffect (PV ip f) (combine (map (PV ip) ph_fields) fs) x = nth (phase_no f) fs nop x.
Proof.
  intros F L. do 11 (destruct fs as [|? fs]; [discriminate|]). destruct fs; [|discriminate]. unfold leffect, ph_fields. cbn [map].
  destruct f as [k|k| | | | |]; cbn [pf_ok] in F; [destruct k as [|[|[|k]]]|destruct k as [|[|[|k]]]| | | | |]; try (exfalso; cbn in F; discriminate F); clear F;
    cbn [combine fold_left fst snd veqb pf_eqb Nat.eqb andb phase_no]; rewrite Nat.eqb_refl; cbn [andb]; cbn [Nat.add nth]; reflexivity.
Qed.

(** ** what does not depend on the variable *)
Definition same_occ (p p' : cphase) : Prop := natoms p' = natoms p /\ (forall i, at_occ (atom_no p' i) = at_occ (atom_no p i)) /\ (forall i, at_sf (atom_no p' i) = at_sf (atom_no p i)).
Lemma same_refl p : same_occ p p. Proof. repeat split; auto. Qed.
Lemma same_field f y p : same_occ p (set_phase_field f y p). Proof. destruct f; repeat split; auto. Qed.
Lemma same_atom ia f y p : (ia < natoms p)%nat -> f <> FOcc -> same_occ p (set_phase_atom ia f y p).
Proof.
  intros H F. split. apply natoms_set. split; intros i; rewrite atom_set by auto; destruct (ia =? i)%nat; auto; destruct f; auto; congruence.
Qed.
Lemma occ_sum_same p p' : same_occ p p' -> occ_sum p' = occ_sum p.
Proof. intros (N & O & _). unfold occ_sum. rewrite N. apply rsum_ext. intros; apply O. Qed.
Lemma weight_same d d' p p' i : same_occ p p' -> cd_type d' = cd_type d -> weight_no d' p' i = weight_no d p i.
Proof.
  intros SO T. unfold weight_no, mean_sf. rewrite (occ_sum_same p p' SO), T. destruct SO as (N & O & S). rewrite N, S. f_equal. f_equal. apply rsum_ext. intros; rewrite O, S; auto.
Qed.
Lemma share_same d d' p p' gi gj : same_occ p p' -> cd_type d' = cd_type d -> counted_share d' p' gi gj = counted_share d p gi gj.
Proof.
  intros SO T. unfold counted_share. pose proof SO as (N & _). rewrite N. f_equal.
  - apply rsum_ext. intros i Hi. apply rsum_ext. intros j Hj. rewrite !(weight_same d d' p p'); auto.
  - rewrite (rsum_ext (natoms p) (weight_no d' p') (weight_no d p)); auto. intros; apply weight_same; auto.
Qed.

Lemma share_rev d p g i j t : pair_share d p g (j, i, rev_t t) = pair_share d p g (i, j, t).
Proof. unfold pair_share. rewrite height_rev. ring. Qed.

Section Ops.
Variables (d : cdata) (ip is : nat) (e : centry) (pts : nat -> list (Z * Z * Z)) (g : Z).
Hypothesis G : good_grid d.
Hypothesis O : off_origin d.
Let p := en_ph e.
Hypothesis UTD : up_to_date e.
Hypothesis SP : sane_phase d p.
Hypothesis LO : (idx d (calc_lo d) <= g)%Z.
Let r := grid d g.
Let np := occ_sum p.
Let n := natoms p.
Let bk := damp d g.
Let W := Wof d pts (ip, e).
Let C := Cof d p.
Let cs := counted_share d p (en_igni e) (en_ignj e).

Lemma r_pos' : 0 < r. Proof. apply grid_pos; auto. Qed.
Lemma np_nz' : np <> 0. Proof. apply SP. Qed.
Lemma radius_is : radius d g = r. Proof. unfold radius, r, grid. ring. Qed.
Definition shp (p : cphase) : R :=
  let s := if Rle_dec (cp_spd p) 0 then 1 else sphereEnvelope r (cp_spd p) in
  if Rlt_dec 0 (cp_stepcut p) then (if Rlt_dec (cp_stepcut p) r then 0 else s) else s.
Lemma env_is p' : envelope d p' r = bk * shp p'.
Proof.
  unfold envelope, shp, bk, damp. rewrite radius_is. unfold m_sqr. set (b := if Rlt_dec 0 (cd_qdamp d) then _ else _).
  assert (E : (if Rlt_dec 0 (cp_spd p') then if Rlt_dec r (cp_spd p') then 1 - 3 / 2 * (r / cp_spd p') + 1 / 2 * (r / cp_spd p') * (r / cp_spd p') * (r / cp_spd p') else 0 else 1) = (if Rle_dec (cp_spd p') 0 then 1 else sphereEnvelope r (cp_spd p'))).
  { destruct (Rlt_dec 0 (cp_spd p')) as [S|S], (Rle_dec (cp_spd p') 0); try lra. unfold sphereEnvelope.
    destruct (Rlt_dec (r / cp_spd p') 1) as [A|A], (Rlt_dec r (cp_spd p')) as [B|B]; auto.
    - field. lra.
    - exfalso; apply B; apply (Rmult_lt_compat_r (cp_spd p')) in A; auto; replace (r / cp_spd p' * cp_spd p') with r in A by (field; lra); lra.
    - exfalso; apply A; apply (Rmult_lt_reg_r (cp_spd p')); auto; replace (r / cp_spd p' * cp_spd p') with r by (field; lra); lra. }
  rewrite E. set (s := if Rle_dec (cp_spd p') 0 then _ else _). cbv zeta. destruct (Rlt_dec 0 (cp_stepcut p')); [|ring].
  destruct (Rle_dec r (cp_stepcut p')), (Rlt_dec (cp_stepcut p') r); try lra; ring.
Qed.

Definition S0 : R := lsum (fun z => if C z g then pair_share d p g z else 0) W.
Definition base : R := 4 * PI * r * density p * cs.
Lemma share_is : share d pts (ip, e) g = bk * shp p * (S0 / (np * r) - base).
Proof. unfold share, fixed_phase. cbn [snd]. fold p r. rewrite env_is. reflexivity. Qed.
Definition facp : R := cp_pscale p * shp p * cd_dscale d * bk.

(** operations on the row *)
Let setup o w := snd (phase_setup d e 0 o w (Some cs) (Some (share d pts (ip, e) g)) (radius d g) (damp d g)).
Lemma pick_setup_atom ia f z : (ia < n)%nat -> af_ok f = true ->
  leffect (AV ip ia f) (last_labs d pts (ip, e) g) z = nth (af_no f) (map snd (firstn 10 (setup [0%nat] [Some (weight_no d p ia)]))) nop z.
Proof.
  intros I F. unfold last_labs. rewrite leffect_app. rewrite leffect_none.
  2:{ intros q H. unfold own_setup in H. destruct q as [w f']. apply in_combine_l in H. apply in_map_iff in H as (k & <- & _). cbn [fst]. discriminate. }
  rewrite (leffect_once (fun i => i) _ _ ia).
  - unfold atom_setup. rewrite pick_atom_vars by auto. rewrite Nat.eqb_refl. reflexivity.
  - rewrite map_id. apply seq_NoDup.
  - apply in_seq. fold p. fold n. lia.
  - intros i _ Ne x. unfold atom_setup. rewrite pick_atom_vars by auto. destruct (Nat.eqb_spec i ia); auto. contradiction.
Qed.
Lemma pick_setup_own f z : pf_ok f = true -> leffect (PV ip f) (last_labs d pts (ip, e) g) z = nth (phase_no f) (map snd (setup [] [])) nop z.
Proof.
  intros F. unfold last_labs. rewrite leffect_app. rewrite leffect_skip. unfold own_setup. rewrite pick_own_vars by auto. reflexivity.
  intros i _ x. apply leffect_none. intros q H. unfold atom_setup in H. destruct q as [w f']. apply in_combine_l in H. apply in_map_iff in H as (k & <- & _). cbn [fst]. discriminate.
Qed.
Lemma facs_is : ndiv (Some 1) (Some (np * r)) = Some (1 / (np * r)).
Proof. apply ndiv_ok. apply Rmult_integral_contrapositive_currified. apply np_nz'. pose proof r_pos'. lra. Qed.
Lemma np_code : de_np (en_der e) = np. Proof. apply (np_is p (en_der e) UTD). Qed.
Lemma rho_code : de_rho0 (en_der e) = Some (density p). Proof. destruct SP as (PC & TN & ICC & _). apply (rho0_is p (en_der e) UTD PC TN ICC). Qed.

Ltac op_start := unfold setup, phase_setup; cbv zeta; cbn [flat_map combine seq map app snd fst firstn nth phase_no af_no Nat.add]; rewrite ?np_code, ?rho_code, ?radius_is; fold p; fold (damp d g); fold bk; rewrite ?facs_is; cbn [nadd nsub nmul].

Lemma op_times_atom f ia x : (ia < n)%nat -> af_ok f = true -> f <> FOcc -> leffect (AV ip ia f) (last_labs d pts (ip, e) g) (Some x) = Some (x * (1 / (np * r) * facp)).
Proof.
  intros I F NF. rewrite pick_setup_atom by auto. destruct f as [k|k|]; [| |congruence]; cbn [af_ok] in F.
  - destruct k as [|[|[|k]]]; try (exfalso; cbn in F; discriminate F); op_start; reflexivity.
  - destruct k as [|[|[|[|[|[|k]]]]]]; try (exfalso; cbn in F; discriminate F); op_start; reflexivity.
Qed.
Lemma op_times_own f x : f = FDelta2 \/ f = FDelta1 \/ f = FSratio -> leffect (PV ip f) (last_labs d pts (ip, e) g) (Some x) = Some (x * (1 / (np * r) * facp)).
Proof. intros F. rewrite pick_setup_own by (destruct F as [->|[->| ->]]; auto). destruct F as [->|[->| ->]]; op_start; reflexivity. Qed.
Lemma op_occ ia x : (ia < n)%nat -> leffect (AV ip ia FOcc) (last_labs d pts (ip, e) g) (Some x) =
  Some (facp * (1 / (np * r) * x - base / np) + cp_pscale p * cd_dscale d * (1 - 2 * weight_no d p ia) / np * (share d pts (ip, e) g + base * bk * shp p)).
Proof.
  intros I. rewrite pick_setup_atom by auto. pose proof np_nz'. op_start. rewrite !ndiv_ok by auto. cbn [nadd nsub nmul]. unfold facp, base, shp. cbv zeta. reflexivity.
Qed.
Lemma op_len k x : (k < 3)%nat -> cp_a0 p k <> 0 -> leffect (PV ip (FA0 k)) (last_labs d pts (ip, e) g) (Some x) =
  Some (facp * (1 / (np * r) * x + base / cp_a0 p k)).
Proof.
  intros K A. rewrite pick_setup_own by (apply Nat.ltb_lt; auto). destruct k as [|[|[|k]]]; try lia; op_start; rewrite ndiv_ok by auto; cbn [nadd nmul]; unfold facp, base, shp; cbv zeta; f_equal; fold cs; field; repeat split; auto; try apply np_nz'; pose proof r_pos'; lra.
Qed.
Lemma op_ang k x : (k < 3)%nat -> l_v (de_lat (en_der e)) <> 0 -> leffect (PV ip (FWin k)) (last_labs d pts (ip, e) g) (Some x) =
  Some (facp * (1 / (np * r) * x + base * (let q := cp_a0 p 0%nat * cp_a0 p 1%nat * cp_a0 p 2%nat / l_v (de_lat (en_der e)) in
    q * q * (rad * m_sind (cp_win p k) * (m_cosd (cp_win p k) - m_cosd (cp_win p ((k + 1) mod 3)%nat) * m_cosd (cp_win p ((k + 2) mod 3)%nat)))))).
Proof.
  intros K V. rewrite pick_setup_own by (apply Nat.ltb_lt; auto). destruct k as [|[|[|k]]]; try lia; op_start; rewrite ndiv_ok by auto; cbn [nadd nmul Nat.add Nat.modulo Nat.divmod fst snd Nat.sub]; unfold facp, base, shp; cbv zeta; f_equal; fold cs; field; repeat split; auto; try apply np_nz'; pose proof r_pos'; lra.
Qed.
Lemma op_pscale x : leffect (PV ip FPscale) (last_labs d pts (ip, e) g) x = Some (share d pts (ip, e) g * cd_dscale d).
Proof. rewrite pick_setup_own by auto. op_start. reflexivity. Qed.
Lemma op_spd x : leffect (PV ip FSpd) (last_labs d pts (ip, e) g) x =
  Some (if Rle_dec (cp_spd p) 0 then 0 else share d pts (ip, e) g * cd_dscale d * cp_pscale p * dsphereEnvelope r (cp_spd p) / (if Rlt_dec 0 (shp p) then shp p else 1)).
Proof.
  rewrite pick_setup_own by auto. op_start. destruct (Rle_dec (cp_spd p) 0) as [L|L]; auto. fold (shp p).
  match goal with |- ndiv _ (Some (if Rlt_dec 0 ?s then _ else _)) = _ => assert (E : s = shp p) end. { unfold shp. destruct (Rle_dec (cp_spd p) 0); [contradiction|]. reflexivity. }
  rewrite E. apply ndiv_ok. destruct (Rlt_dec 0 (shp p)); lra.
Qed.
End Ops.
