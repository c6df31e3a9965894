(** What one pair adds to the row of derivatives, as the slope of its peak. *)
From Coq Require Import List Arith ZArith Reals Bool Lia Lra.
From Verif Require Import Base RSum MathModel MetricModel MetricSpec MetricProof PdfModel PdfSpec PdfTotal PdfPeak LayoutModel DerivModel DerivSpec DerivRow DerivPair DerivCalc.
Import ListNotations.
Local Open Scope R_scope.

Definition af_no (f : atom_field) : nat := match f with FPos k => k | FU k => 3 + k | FOcc => 9 end.
Definition af_ok (f : atom_field) : bool := match f with FPos k => (k <? 3)%nat | FU k => (k <? 6)%nat | FOcc => true end.
Definition nop : num -> num := fun x => x.

Lemma pick_atom ip i j is ia f fs x : af_ok f = true -> length fs = 30%nat ->
  leffect (AV ip ia f) (combine (pair_vars ip i j is) fs) x =
  (if (j =? ia)%nat then nth (2 * af_no f + 1) fs nop else nop) ((if (i =? ia)%nat then nth (2 * af_no f) fs nop else nop) x).
Proof.
  intros F L. do 30 (destruct fs as [|? fs]; [discriminate|]). destruct fs; [|discriminate].
  unfold leffect, pair_vars. 
  destruct f as [k|k|]; cbn [af_ok] in F; [destruct k as [|[|[|k]]]|destruct k as [|[|[|[|[|[|k]]]]]]|];
    try (exfalso; cbn in F; discriminate F); clear F;
    cbn [app combine fold_left fst snd veqb af_eqb Nat.eqb andb af_no]; rewrite Nat.eqb_refl; cbn [andb];
    cbn [Nat.mul Nat.add nth]; destruct (i =? ia)%nat, (j =? ia)%nat; reflexivity.
Qed.
Definition pf_no (f : phase_field) : nat := match f with FA0 k => k | FWin k => 3 + k | FDelta2 => 6 | FDelta1 => 7 | FSratio => 8 | FPscale => 10 | FSpd => 11 end.
Definition pf_ok (f : phase_field) : bool := match f with FA0 k => (k <? 3)%nat | FWin k => (k <? 3)%nat | _ => true end.
Lemma pick_phase ip i j is f fs x : pf_ok f = true -> length fs = 30%nat ->
  leffect (PV ip f) (combine (pair_vars ip i j is) fs) x = match f with FPscale => x | FSpd => x | _ => nth (20 + pf_no f) fs nop x end.
Proof.
  intros F L. do 30 (destruct fs as [|? fs]; [discriminate|]). destruct fs; [|discriminate].
  unfold leffect, pair_vars. 
  destruct f as [k|k| | | | |]; cbn [pf_ok] in F; [destruct k as [|[|[|k]]]|destruct k as [|[|[|k]]]| | | | |];
    try (exfalso; cbn in F; discriminate F); clear F;
    cbn [app combine fold_left fst snd veqb pf_eqb Nat.eqb andb pf_no]; rewrite ?Nat.eqb_refl; cbn [andb];
    cbn [Nat.mul Nat.add nth]; reflexivity.
Qed.
Lemma pick_set ip i j is is' f fs x : length fs = 30%nat ->
  leffect (SV is' f) (combine (pair_vars ip i j is) fs) x = if (is =? is')%nat then match f with FQbroad => nth 29 fs nop x | _ => x end else x.
Proof.
  intros L. do 30 (destruct fs as [|? fs]; [discriminate|]). destruct fs; [|discriminate].
  unfold leffect, pair_vars. destruct f; cbn [app combine fold_left fst snd veqb sf_eqb andb nth]; destruct (is =? is')%nat; reflexivity.
Qed.
Lemma pick_other ip i j is v fs x : (forall k, v <> SV is k) -> (forall f, v <> PV ip f) -> (forall ia f, v <> AV ip ia f) -> leffect v (combine (pair_vars ip i j is) fs) x = x.
Proof.
  intros S P A. unfold leffect. assert (H : forall w, In w (pair_vars ip i j is) -> veqb w v = false).
  { intros w I. destruct (veqb w v) eqn:Q; auto. apply veqb_eq in Q. subst w. exfalso. unfold pair_vars in I. cbn [app In] in I.
    repeat (destruct I as [I|I]; [subst v; first [apply (S _ eq_refl) | apply (P _ eq_refl) | apply (A _ _ eq_refl)]|]). destruct I. }
  revert fs x H. generalize (pair_vars ip i j is). induction l as [|w l IH]; intros fs x H; destruct fs as [|f fs]; cbn [combine fold_left]; auto.
  cbn [fst snd]. rewrite (H w (or_introl eq_refl)). apply IH. intros; apply H; right; auto.
Qed.

(** ** slopes *)
Definition slope (N0 z s sp phi r' u' f' phi' : R) : R :=
  N0 * ((z / s * (z / s) - 1) / s * wslope s sp u' f' phi phi' + z / (s * s) * r').

Section Effect.
Variables (p : cphase) (qb : R) (ai aj : catom) (rk r s sp A N0 : R) (dv : v3).
Hypothesis R0 : r <> 0.
Hypothesis S0 : s <> 0.
Hypothesis SP0 : sp <> 0.
Hypothesis Q0 : cp_sratio p <> 0.
Let E := pair_edits p qb ai aj 0 0 0 0 rk r (Some s) (Some sp) (Some A) (Some N0) dv.
Let u k := at_u ai k + at_u aj k.
Definition ph_now (p : cphase) (r : R) : R := if Rlt_dec r (cp_rcut p) then cp_sratio p else 1.
(** row k of the summed displacements times the vector *)
Definition urow (u : nat -> R) (e : v3) (k : nat) : R :=
  match k with
  | O => e 0%nat * u 0%nat + e 1%nat * u 3%nat + e 2%nat * u 4%nat
  | S O => e 0%nat * u 3%nat + e 1%nat * u 1%nat + e 2%nat * u 5%nat
  | _ => e 0%nat * u 4%nat + e 1%nat * u 5%nat + e 2%nat * u 2%nat
  end.
Definition uform (e : v3) (k : nat) : R :=
  match k with
  | O => e 0%nat * e 0%nat | 1%nat => e 1%nat * e 1%nat | 2%nat => e 2%nat * e 2%nat
  | 3%nat => 2 * (e 0%nat * e 1%nat) | 4%nat => 2 * (e 0%nat * e 2%nat) | _ => 2 * (e 1%nat * e 2%nat)
  end.
(** slope of the width correction with the distance *)
Definition fslope (p : cphase) (qb r : R) : R := 2 * cp_delta2 p / (r * r * r) + cp_delta1 p / (r * r) + 2 * (qb * qb) * r.
Let sl := slope N0 (rk - r) s sp (ph_now p r).
(** slope when component k of the vector moves by c *)
Definition mv_slope (k : nat) (c : R) : R :=
  let r' := dv k * c / r in sl r' (2 * (urow u dv k * c / (r * r) - sp * sp * r' / r)) (fslope p qb r * r') 0.

Lemma edits_len : length (map snd E) = 30%nat. Proof. reflexivity. Qed.
Lemma ph_nz : ph_now p r <> 0. Proof. unfold ph_now. destruct (Rlt_dec _ _); [exact Q0|lra]. Qed.
Let side := ph_nz.

Ltac nz := match goal with
  | |- ?a * ?b <> 0 => apply Rmult_integral_contrapositive_currified; nz
  | |- _ => first [assumption | exact ph_nz | lra] end.
Ltac num_eval := cbn [nadd nsub nmul]; repeat (first [rewrite ndiv_ok by nz]; cbn [nadd nsub nmul]).
Ltac start := unfold plus_, minus_, m_sqr, m_cube;
  replace (if (if Rlt_dec r (cp_rcut p) then true else false) then Some (cp_sratio p) else Some 1) with (Some (ph_now p r)) by (unfold ph_now; destruct (Rlt_dec _ _); reflexivity);
  num_eval.

Lemma edit_u k x : (k < 6)%nat -> let e := Some (x + A * sl 0 (uform dv k / (r * r)) 0 0) in nth (2 * (3 + k)) (map snd E) nop (Some x) = e /\ nth (2 * (3 + k) + 1) (map snd E) nop (Some x) = e.
Proof.
  intros K. destruct k as [|[|[|[|[|[|k]]]]]]; try lia; unfold E, pair_edits; cbv zeta; cbn [app map snd nth Nat.mul Nat.add]; start; unfold sl, slope, wslope, uform;
    (split; f_equal; field; auto).
Qed.
Lemma edit_occ x : at_occ ai <> 0 -> nth 18 (map snd E) nop (Some x) = Some (x + A * N0 / at_occ ai).
Proof. intros O. unfold E, pair_edits; cbv zeta; cbn [app map snd nth]. unfold plus_. cbn [nmul]. rewrite ndiv_ok by auto. reflexivity. Qed.
Lemma edit_occ' x : at_occ aj <> 0 -> nth 19 (map snd E) nop (Some x) = Some (x + A * N0 / at_occ aj).
Proof. intros O. unfold E, pair_edits; cbv zeta; cbn [app map snd nth]. unfold plus_. cbn [nmul]. rewrite ndiv_ok by auto. reflexivity. Qed.
Lemma edit_delta2 x : nth 26 (map snd E) nop (Some x) = Some (x + A * sl 0 0 (- 1 / (r * r)) 0).
Proof. unfold E, pair_edits; cbv zeta; cbn [app map snd nth]; start; unfold sl, slope, wslope; f_equal; field; auto. Qed.
Lemma edit_delta1 x : nth 27 (map snd E) nop (Some x) = Some (x + A * sl 0 0 (- 1 / r) 0).
Proof. unfold E, pair_edits; cbv zeta; cbn [app map snd nth]; start; unfold sl, slope, wslope; f_equal; field; auto. Qed.
Lemma edit_sratio x : nth 28 (map snd E) nop (Some x) = Some (x + A * sl 0 0 0 (if Rlt_dec r (cp_rcut p) then 1 else 0)).
Proof.
  unfold E, pair_edits; cbv zeta; cbn [app map snd nth]; start. destruct (Rlt_dec r (cp_rcut p)); start; unfold sl, slope, wslope; f_equal; field; auto.
Qed.
Lemma edit_qbroad x : nth 29 (map snd E) nop (Some x) = Some (x + A * sl 0 0 (2 * qb * (r * r)) 0).
Proof. unfold E, pair_edits; cbv zeta; cbn [app map snd nth]; start; unfold sl, slope, wslope; f_equal; field; auto. Qed.

(** the distance moves, the displacements are taken to follow 1 / r^2 *)
Definition ang_slope (k : nat) : R :=
  let r' := - rad * m_sind (cp_win p k) * (match k with 0%nat => dv 1%nat * dv 2%nat | 1%nat => dv 0%nat * dv 2%nat | _ => dv 0%nat * dv 1%nat end) / r in
  sl r' (2 * (- (sp * sp * r' / r))) (fslope p qb r * r') 0.
Lemma edit_ang k x : (k < 3)%nat -> nth (23 + k) (map snd E) nop (Some x) = Some (x + A * ang_slope k).
Proof.
  intros K. destruct k as [|[|[|k]]]; try lia; unfold E, pair_edits; cbv zeta; cbn [app map snd nth Nat.mul Nat.add]; start; unfold ang_slope, sl, slope, wslope, fslope;
    (f_equal; field; auto).
Qed.

Hypothesis RA : right_angles p.
Lemma cos0 k : (k < 3)%nat -> m_cosd (cp_win p k) = 0. Proof. intros. rewrite RA by auto. apply cosd90. Qed.
Lemma edit_pos k x : (k < 3)%nat ->
  nth (2 * k) (map snd E) nop (Some x) = Some (x + A * mv_slope k (cp_a0 p k)) /\ nth (2 * k + 1) (map snd E) nop (Some x) = Some (x - A * mv_slope k (cp_a0 p k)).
Proof.
  intros K. pose proof (cos0 0 ltac:(lia)) as C0. pose proof (cos0 1 ltac:(lia)) as C1. pose proof (cos0 2 ltac:(lia)) as C2.
  destruct k as [|[|[|k]]]; try lia; unfold E, pair_edits; cbv zeta; cbn [app map snd nth Nat.mul Nat.add]; rewrite ?C0, ?C1, ?C2; start; unfold mv_slope, sl, slope, wslope, fslope, urow, u;
    (split; f_equal; field; auto).
Qed.
Lemma edit_len k x : (k < 3)%nat -> cp_a0 p k <> 0 -> nth (20 + k) (map snd E) nop (Some x) = Some (x + A * mv_slope k (dv k / cp_a0 p k)).
Proof.
  intros K AN. pose proof (cos0 0 ltac:(lia)) as C0. pose proof (cos0 1 ltac:(lia)) as C1. pose proof (cos0 2 ltac:(lia)) as C2.
  destruct k as [|[|[|k]]]; try lia; unfold E, pair_edits; cbv zeta; cbn [app map snd nth Nat.mul Nat.add]; rewrite ?C0, ?C1, ?C2; start; unfold mv_slope, sl, slope, wslope, fslope, urow, u;
    (f_equal; field; auto).
Qed.
End Effect.
