(** Proofs: a larger cell gives the same PDF. *)
From Coq Require Import List Arith ZArith Reals Bool Lia Lra Permutation.
From Verif Require Import Base RSum MathModel MetricModel MetricSpec MetricProof SphereModel SphereSpec SphereProof PdfModel PdfSpec PdfProof PdfGeo PdfSum PdfPeak PdfPhase PdfFft PdfTotal PdfFinal RelSpec RelProof RelFinal RelList RelTheory RelAll SupSpec SupProof.
Import ListNotations.
Local Open Scope R_scope.

Lemma sane_det d p : sane_phase d p -> det33 (metric (cp_a0 p) (cp_win p)) <> 0.
Proof.
  intros ((A & B & C & _ & _ & _ & G) & _). rewrite det_metric. unfold ccos. assert (0 < cp_a0 p 0%nat * cp_a0 p 1%nat * cp_a0 p 2%nat) by (repeat apply Rmult_lt_0_compat; auto). apply Rgt_not_eq, Rmult_lt_0_compat; [apply Rmult_lt_0_compat|]; auto.
Qed.
Section Det.
Variable d : cdata.
Hypothesis G : good_grid d.
Hypothesis O : off_origin d.
Let lo := idx d (calc_lo d).
Let hi := idx d (calc_hi d).
Let N := Z.to_nat (hi + 1).
Lemma super_adds k e e' : good_entry d e -> good_entry d e' -> complete e -> complete e' -> supercell k e e' ->
  exists f0, forall fuel t, (f0 <= fuel)%nat -> length t = N -> exists t', length t' = N /\
  add_phase fuel d (calc_lo d) (calc_hi d) lo hi t e = Ok t' /\ add_phase fuel d (calc_lo d) (calc_hi d) lo hi t e' = Ok t'.
Proof.
  intros GE GE' C C' (m & o & (K1 & E & M & SUR & INJ) & FL). destruct (adds d G O e GE) as (W & f0 & V & (P & _) & PV & A), (adds d G O e' GE') as (W' & f0' & V' & (P' & _) & PV' & A').
  assert (VV : forall g, (lo <= g <= hi)%Z -> V' g = V g).
  { intros g Hg. specialize (PV g Hg). specialize (PV' g Hg). destruct GE as (_ & S). pose proof (w_sum d e S) as W1. pose proof (sane_det d _ S) as DT.
    destruct e' as [p' de' gi gj]. cbn [en_ph] in *. remember (cp_atoms p') as l. clear Heql. subst p'.
    eapply (sup_pdf d e k l de' gi gj m o g); eauto. apply S. }
  exists (Nat.max f0 f0'). intros fuel t Hf L. destruct (A fuel t ltac:(lia) L) as (t1 & E1 & L1 & X1), (A' fuel t ltac:(lia) L) as (t2 & E2 & L2 & X2).
  exists t1. split; auto. split; auto. fold lo hi in E2. rewrite E2. f_equal. apply (el_ext d); auto. intros g Hg. fold lo hi in X1, X2. rewrite X1, X2 by auto. destruct (Z.ltb_spec g lo); auto. rewrite VV by lia.
  rewrite E. reflexivity.
Qed.
Lemma material_adds e e' : good_entry d e -> good_entry d e' -> complete e -> complete e' -> same_material e e' ->
  exists f0, forall fuel t, (f0 <= fuel)%nat -> length t = N -> exists t', length t' = N /\
  add_phase fuel d (calc_lo d) (calc_hi d) lo hi t e = Ok t' /\ add_phase fuel d (calc_lo d) (calc_hi d) lo hi t e' = Ok t'.
Proof. intros GE GE' C C' [H|(k & H)]. apply (relisted_adds d G O); auto. apply (super_adds k); auto. Qed.
Let step fuel := (fun t (pe : option centry) => match pe with Some e => add_phase fuel d (calc_lo d) (calc_hi d) lo hi t e | None => Ok t end).
Lemma fold_material psel psel' : Forall2 (opt_rel same_material) psel psel' ->
  (forall e, In e (selected_entries psel) \/ In e (selected_entries psel') -> good_entry d e /\ complete e) ->
  exists f0, forall fuel t, (f0 <= fuel)%nat -> length t = N -> exists t', length t' = N /\ ofold (step fuel) psel t = Ok t' /\ ofold (step fuel) psel' t = Ok t'.
Proof.
  intros F. induction F as [|[e|] [e'|] l l' R F IH]; intros H; try contradiction.
  - exists 0%nat. intros fuel t _ L. exists t. auto.
  - cbn [selected_entries] in H. destruct IH as (f1 & IH). { intros x [I|I]; apply H; cbn; auto. }
    destruct (material_adds e e') as (f2 & A); try apply H; cbn; auto.
    exists (Nat.max f1 f2). intros fuel t Hf L. destruct (A fuel t ltac:(lia) L) as (t1 & L1 & E1 & E2). destruct (IH fuel t1 ltac:(lia) L1) as (t2 & L2 & E3 & E4).
    exists t2. cbn [ofold step]. rewrite E1, E2. cbn [obind]. auto.
  - destruct (IH H) as (f1 & IH'). exists f1. exact IH'.
Qed.
Lemma material_pdf psel psel' : Forall2 (opt_rel same_material) psel psel' ->
  (forall e, In e (selected_entries psel) \/ In e (selected_entries psel') -> good_entry d e /\ complete e) ->
  exists f0, forall fuel, (f0 <= fuel)%nat -> determine fuel d psel' = determine fuel d psel.
Proof.
  intros F H. destruct (fold_material psel psel' F H) as (f0 & A). exists f0. intros fuel Hf. destruct (A fuel (repeat (Some 0) N) Hf (repeat_length _ _)) as (t & _ & E1 & E2). apply (determine_fold d G). fold lo hi N. unfold step in E1, E2. congruence.
Qed.
End Det.
(** a larger cell has its atoms within one cell when the smaller one has *)
Lemma super_complete k e e' : (forall j, cp_icc (en_ph e) j = 1%Z) -> complete e -> supercell k e e' -> complete e'.
Proof.
  intros I (C & S) (m & o & (K1 & E & M & _) & _). split; [|rewrite E; exact S].
  intros x y j Hx Hy Hj. destruct (M x Hx) as (Mx & Cx & _ & _ & _ & Px), (M y Hy) as (My & Cy & _ & _ & _ & Py). rewrite Px, Py by auto. rewrite I.
  specialize (C (m x) (m y) j Mx My Hj). specialize (Cx j Hj). specialize (Cy j Hj). specialize (K1 j Hj). pose proof (Rle_abs (at_pos (atom_no (en_ph e) (m x)) j - at_pos (atom_no (en_ph e) (m y)) j)) as CA. pose proof (Rle_abs (- (at_pos (atom_no (en_ph e) (m x)) j - at_pos (atom_no (en_ph e) (m y)) j))) as CB. rewrite Rabs_Ropp in CB.
  set (kk := comp k j) in *. assert (KP : 1 <= IZR kk) by (apply IZR_le; lia).
  assert (U1 : - (IZR kk - 1) <= IZR (comp (o x) j) - IZR (comp (o y) j) <= IZR kk - 1). { rewrite <- !minus_IZR, <- opp_IZR. split; apply IZR_le; lia. }
  assert (R : forall u, - IZR kk <= u <= IZR kk -> Rabs (u / IZR kk) <= 1). { intros u Hu. apply Rabs_le. split. apply (Rmult_le_reg_r (IZR kk)); [lra|]. unfold Rdiv. rewrite Rmult_assoc, Rinv_l by lra. lra. apply (Rmult_le_reg_r (IZR kk)); [lra|]. unfold Rdiv. rewrite Rmult_assoc, Rinv_l by lra. lra. }
  match goal with |- Rabs (?a / _ - ?b / _) <= 1 => replace (a / IZR kk - b / IZR kk) with ((a - b) / IZR kk) by (field; lra) end. apply R. lra.
Qed.
Lemma material_same d psel psel' : good_grid d -> off_origin d -> good_filter d -> ready d psel -> ready d psel' -> all_complete psel -> all_complete psel' ->
  Forall2 (opt_rel same_material) psel psel' -> same_pdf d psel psel'.
Proof.
  intros G O F R R' C C' P. apply same_of; auto. apply material_pdf; auto. intros e [I|I]; split; auto; [apply R|apply R']; auto.
Qed.

(** ** with wrapping *)
Lemma fmod1 x : 0 <= x -> exists z : Z, fmod x 1 = x - IZR z /\ 0 <= x - IZR z < 1.
Proof. intros H. exists (ztrunc (x / 1)). pose proof (fmod_unit x H). unfold fmod in *. split; lra. Qed.
Definition fl (x : R) : Z := ztrunc (x / 1).
Lemma fmod_fl x : fmod x 1 = x - IZR (fl x). Proof. unfold fmod, fl. ring. Qed.
Lemma fl_bound x : 0 <= x -> 0 <= x - IZR (fl x) < 1. Proof. intros H. rewrite <- fmod_fl. apply fmod_unit; auto. Qed.
Section Wrap.
Variables (k : trip) (p p' : cphase) (m : nat -> nat) (o : nat -> trip).
Hypothesis (Q : plain p) (Q' : plain p').
Hypothesis CP : copies k p p' m o.
Let zi i j := fl (at_pos (atom_no p i) j).
Let zx x j := fl (at_pos (atom_no p' x) j).
Definition wcell (x : nat) : trip :=
  (comp (o x) 0 + zi (m x) 0 - comp k 0 * zx x 0, comp (o x) 1 + zi (m x) 1 - comp k 1 * zx x 1, comp (o x) 2 + zi (m x) 2 - comp k 2 * zx x 2)%Z.
Lemma wcell_comp x j : (j < 3)%nat -> comp (wcell x) j = (comp (o x) j + zi (m x) j - comp k j * zx x j)%Z.
Proof. intros H. destruct j as [|[|[|j]]]; [| | |lia]; reflexivity. Qed.
Lemma wcell_in x : (x < natoms p')%nat -> cell_in k (wcell x).
Proof.
  intros Hx j Hj. destruct CP as (K1 & E & M & _). destruct (M x Hx) as (Mx & Cx & _ & _ & _ & Px). destruct Q as (I & _ & P & _), Q' as (_ & _ & P' & _).
  specialize (Px j Hj). rewrite I in Px. pose proof (fl_bound _ (P (m x) j Mx Hj)) as B. pose proof (fl_bound _ (P' x j Hx Hj)) as B'. specialize (K1 j Hj). rewrite wcell_comp by auto. fold (zi (m x) j) in B. fold (zx x j) in B'.
  rewrite Px in B'. set (kk := comp k j) in *. assert (KP : 1 <= IZR kk) by (apply IZR_le; lia). set (a := at_pos (atom_no p (m x)) j) in *.
  assert (X : 0 <= a + IZR (comp (o x) j) - IZR kk * IZR (zx x j) < IZR kk).
  { replace (a + IZR (comp (o x) j) - IZR kk * IZR (zx x j)) with (((a + IZR (comp (o x) j) * 1) / IZR kk - IZR (zx x j)) * IZR kk) by (field; lra). split. apply Rmult_le_pos; lra. apply (Rlt_le_trans _ (1 * IZR kk)); [apply Rmult_lt_compat_r; lra|lra]. }
  split.
  - apply Z.lt_succ_r. apply lt_IZR. unfold Z.succ. rewrite plus_IZR, minus_IZR, plus_IZR, mult_IZR. lra.
  - apply lt_IZR. rewrite minus_IZR, plus_IZR, mult_IZR. lra.
Qed.
Lemma wrap_copies : copies k (wrap_phase p) (wrap_phase p') m wcell.
Proof.
  pose proof wcell_in as WI. destruct CP as (K1 & E & M & SUR & INJ). split; auto. split; [|split; [|split]].
  - rewrite E at 1. unfold wrap_phase at 1. unfold recelled. cbn [cp_a0 cp_win cp_icc cp_atoms cp_delta2 cp_delta1 cp_pscale cp_spd cp_stepcut cp_sratio cp_rcut wrap_phase]. assert (CI : cp_icc p' = cp_icc p) by (rewrite E; reflexivity). rewrite CI. reflexivity.
  - rewrite !wrap_natoms. intros x Hx. destruct (M x Hx) as (Mx & Cx & U & S & OC & Px). split; auto. split; auto. rewrite !wrap_no by auto. split; auto. split; auto. split; auto.
    intros j Hj. cbn [at_pos wrap_phase cp_icc]. destruct Q as (I & _), Q' as (I' & _). rewrite I, I', !fmod_fl. rewrite wcell_comp by auto. rewrite minus_IZR, plus_IZR, mult_IZR. fold (zi (m x) j) (zx x j). rewrite Px by auto. rewrite I.
    assert (1 <= IZR (comp k j)) by (apply IZR_le; apply K1; auto). field. lra.
  - rewrite !wrap_natoms. intros i c Hi Hc.
    set (b := (((comp c 0 - zi i 0) mod comp k 0, (comp c 1 - zi i 1) mod comp k 1, (comp c 2 - zi i 2) mod comp k 2)%Z : trip)).
    assert (BC : forall j, (j < 3)%nat -> comp b j = ((comp c j - zi i j) mod comp k j)%Z) by (intros j Hj; destruct j as [|[|[|j]]]; [| | |lia]; reflexivity).
    destruct (SUR i b Hi) as (x & Hx & E1 & E2). { intros j Hj. rewrite BC by auto. apply Z.mod_pos_bound. specialize (K1 j Hj). lia. }
    exists x. split; auto. split; auto. apply trip_eq. intros j Hj. pose proof (WI x Hx j Hj) as B. rewrite wcell_comp in * by auto. rewrite E2, E1, BC in * by auto.
    specialize (Hc j Hj). specialize (K1 j Hj). pose proof (Z.div_mod (comp c j - zi i j) (comp k j)) as D. set (q := ((comp c j - zi i j) / comp k j)%Z) in *. set (r := ((comp c j - zi i j) mod comp k j)%Z) in *. set (w := zx x j) in *.
    assert (r + zi i j - comp k j * w = comp c j - comp k j * (q + w))%Z by lia. assert (q + w = 0)%Z by nia. nia.
  - rewrite !wrap_natoms. intros x y Hx Hy EM EW. apply INJ; auto. apply trip_eq. intros j Hj. assert (T : comp (wcell x) j = comp (wcell y) j) by (rewrite EW; auto). rewrite !wcell_comp, EM in T by auto.
    destruct (M x Hx) as (_ & Cx & _), (M y Hy) as (_ & Cy & _). specialize (Cx j Hj). specialize (Cy j Hj). assert (zx x j = zx y j) by nia. nia.
Qed.
End Wrap.

Lemma entries_crystal d : forall ph ph', Forall2 same_crystal ph ph' -> forall phd phd' sel, Forall2 lat_of ph phd -> Forall2 lat_of ph' phd' -> Forall plain ph -> Forall plain ph' ->
  (forall p, In p ph \/ In p ph' -> sane_phase d p) -> (forall gi gj i, In (Some (gi, gj)) sel -> gi i = false /\ gj i = false) ->
  Forall2 (opt_rel same_material) (entries phd sel) (entries phd' sel) /\
  forall e, In e (selected_entries (entries phd sel)) \/ In e (selected_entries (entries phd' sel)) -> good_entry d e /\ complete e.
Proof.
  intros ph ph' F. induction F as [|p p' ph ph' S F IH]; intros phd phd' sel L L' Q Q' SN EV; inversion L as [|? [q de] ? phd1 (L1 & L2) L3]; subst; inversion L' as [|? [q' de'] ? phd1' (L1' & L2') L3']; subst.
  - cbn. split. constructor. intros e [[]|[]].
  - cbn [fst snd] in *. subst q q'. inversion Q as [|? ? Q1 Q2]; subst. inversion Q' as [|? ? Q1' Q2']; subst.
    destruct sel as [|s sel]; cbn [entries]. { split. constructor. intros e [[]|[]]. }
    destruct (IH phd1 phd1' sel L3 L3' Q2 Q2') as (A & B). { intros x [X|X]; apply SN; cbn; auto. } { intros; apply (EV gi gj i); right; auto. }
    destruct s as [[gi gj]|].
    + split.
      * constructor; auto. cbn. destruct S as [(m & v & S)|(k & m & o & S)].
        -- left. exists m, v. split. apply wrap_placed; auto. left. split; intros i _; apply (EV gi gj i); left; auto.
        -- right. exists k, m, (wcell k p p' m o). split. apply wrap_copies; auto. intros x _. cbn [en_igni en_ignj]. destruct (EV gi gj x (or_introl eq_refl)) as (-> & ->), (EV gi gj (m x) (or_introl eq_refl)) as (-> & ->). auto.
      * cbn [selected_entries]. assert (X : forall p de, plain p -> sane_phase d p -> phase_lattice (wrap_phase p) = Ok de -> good_entry d (mkEnt (wrap_phase p) de gi gj) /\ complete (mkEnt (wrap_phase p) de gi gj)).
        { intros p0 de0 PP SS LL. split. split. exact LL. apply wrap_sane; auto. split. apply wrap_one; auto. apply PP. }
        intros e [[<-|I]|[<-|I]]; auto. apply X; auto. apply SN; cbn; auto. apply X; auto. apply SN; cbn; auto.
    + split. constructor; cbn; auto. exact B.
Qed.
Lemma theory_crystal ph ph' sets : Forall2 same_crystal ph ph' -> Forall plain ph -> Forall plain ph' ->
  (forall s, In s sets -> good_grid (cs_data s) /\ off_origin (cs_data s) /\ good_filter (cs_data s) /\ everything s /\ forall p, In p ph \/ In p ph' -> sane_phase (cs_data s) p) ->
  exists f0, forall fuel, (f0 <= fuel)%nat -> exists n r, fit_theory fuel ph sets = Ok (map wrap_phase ph, n, r) /\ fit_theory fuel ph' sets = Ok (map wrap_phase ph', n, r).
Proof.
  intros F Q Q' H. destruct (lats ph Q) as (phd & L & E), (lats ph' Q') as (phd' & L' & E').
  destruct (sets_same phd phd' sets) as (f1 & A).
  { intros s I. destruct (H s I) as (G & O & _ & EV & SN). destruct (entries_crystal (cs_data s) ph ph' F phd phd' (cs_sel s) L L' Q Q' SN EV) as (X & Y).
    apply (material_pdf (cs_data s) G O); auto. }
  destruct (fit_theory_ok ph) with (sets := sets) as (f2 & B). { eapply Forall_impl; [|exact Q]. intros p Hp. apply Hp. } { apply Forall_forall. intros s I. split; apply H; auto. }
  exists (Nat.max f1 f2). intros fuel Hf. destruct (B fuel ltac:(lia)) as (ph1 & n & r & D & _). pose proof D as D0. unfold fit_theory in D. rewrite E in D. cbn [obind app] in D.
  assert (PH : ph1 = map wrap_phase ph). { destruct (ofold _ sets _); try discriminate. cbn [obind] in D. injection D; auto. } subst ph1.
  exists n, r. split; auto. unfold fit_theory. rewrite E'. cbn [obind app]. rewrite A by lia.
  destruct (ofold _ sets _); try discriminate. cbn [obind] in *. injection D as <- <-. auto.
Qed.
