(** Proofs: whole calculations of relisted samples. *)
From Coq Require Import List Arith ZArith Reals Bool Lia Lra Permutation.
From Verif Require Import Base RSum MathModel MetricModel MetricSpec PdfModel PdfSpec PdfProof PdfFinal RelSpec RelProof RelFinal.
Import ListNotations.
Local Open Scope R_scope.

Lemma wrap_natoms p : natoms (wrap_phase p) = natoms p. Proof. apply map_length. Qed.
Lemma wrap_no p i : (i < natoms p)%nat -> atom_no (wrap_phase p) i =
  mkAt (fun k => fmod (at_pos (atom_no p i) k) (IZR (cp_icc p k))) (at_u (atom_no p i)) (at_occ (atom_no p i)) (at_sf (atom_no p i)).
Proof.
  intros H. unfold atom_no. cbn [wrap_phase cp_atoms]. set (f a := mkAt (fun k => fmod (at_pos a k) (IZR (cp_icc p k))) (at_u a) (at_occ a) (at_sf a)).
  rewrite (nth_indep _ no_atom (f no_atom)) by (rewrite map_length; auto). apply (map_nth f).
Qed.
Lemma wrap_sane d p : sane_phase d p -> sane_phase d (wrap_phase p).
Proof.
  intros (A & B & C & O & M & S & U & T).
  assert (OO : occ_sum (wrap_phase p) = occ_sum p) by (unfold occ_sum; rewrite wrap_natoms; apply rsum_ext; intros; rewrite wrap_no by auto; auto).
  split; [exact A|]. split; [exact B|]. split; [exact C|]. split; [rewrite OO; auto|]. split; [|split; [|split; auto]].
  - unfold mean_sf in *. rewrite OO, wrap_natoms. rewrite (rsum_ext _ _ (fun i => at_occ (atom_no p i) * at_sf (atom_no p i) (cd_type d))); auto. intros; rewrite wrap_no by auto; auto.
  - rewrite wrap_natoms. rewrite (rsum_ext _ _ (fun i => at_sf (atom_no p i) (cd_type d))); auto. intros; rewrite wrap_no by auto; auto.
  - rewrite wrap_natoms. intros i j h Hi Hj. rewrite !wrap_no by auto. exact (U i j h Hi Hj).
Qed.
Lemma fmod_unit x : 0 <= x -> 0 <= fmod x 1 < 1.
Proof.
  intros H. unfold fmod, ztrunc. replace (x / 1) with x by field. destruct (Rlt_dec x 0); [lra|]. pose proof (zfloor_spec x). lra.
Qed.
Lemma wrap_one p : plain p -> one_cell (wrap_phase p).
Proof.
  intros (I & _ & P & _) i j k Hi Hj Hk. rewrite wrap_natoms in *. rewrite !wrap_no by auto. cbn [at_pos]. rewrite I.
  pose proof (fmod_unit _ (P i k Hi Hk)). pose proof (fmod_unit _ (P j k Hj Hk)). apply Rabs_le. lra.
Qed.
Lemma wrap_placed p p' m v : placed p p' m v -> placed (wrap_phase p) (wrap_phase p') m v.
Proof.
  intros (E & M & O). split; [|split].
  - clear - E. destruct p, p'. unfold with_atoms in E. cbn in E. injection E; intros; subst. reflexivity.
  - rewrite !wrap_natoms. intros x Hx. destruct (M x Hx) as (Mx & U & S & P). split; auto. rewrite !wrap_no by auto. split; auto. split; auto.
    intros k Hk. destruct (P k Hk) as (z & Z). cbn [at_pos]. unfold fmod. set (z1 := ztrunc _). set (z2 := ztrunc _). exists (z - z1 + z2)%Z.
    assert (CI : cp_icc p' = cp_icc p) by (rewrite E; reflexivity). cbn [wrap_phase cp_icc]. rewrite CI, Z, plus_IZR, minus_IZR. ring.
  - rewrite !wrap_natoms. intros i Hi. rewrite wrap_no by auto. cbn [at_occ]. rewrite O by auto. apply rsum_ext. intros x Hx. rewrite wrap_no by auto. auto.
Qed.
Definition lat_of (p : cphase) (pd : cphase * cderived) : Prop := fst pd = wrap_phase p /\ phase_lattice (wrap_phase p) = Ok (snd pd).
Lemma lats ph : Forall plain ph -> exists phd, Forall2 lat_of ph phd /\
  forall acc, ofold (fun acc p => obind (phase_lattice p) (fun de => Ok (acc ++ [(p, de)]))) (map wrap_phase ph) acc = Ok (acc ++ phd).
Proof.
  intros F. induction F as [|p ph (_ & _ & _ & ((de & L) & _)) F (phd & H & E)].
  - exists []. split. constructor. intros acc. rewrite app_nil_r. auto.
  - rewrite <- wrap_lattice in L. exists ((wrap_phase p, de) :: phd). split. constructor; auto. split; auto. intros acc. cbn [map ofold]. rewrite L. cbn [obind]. rewrite E, <- app_assoc. auto.
Qed.
Lemma entries_same d : forall ph ph', Forall2 same_sample ph ph' -> forall phd phd' sel, Forall2 lat_of ph phd -> Forall2 lat_of ph' phd' -> Forall plain ph -> Forall plain ph' ->
  (forall p, In p ph \/ In p ph' -> sane_phase d p) -> (forall gi gj i, In (Some (gi, gj)) sel -> gi i = false /\ gj i = false) ->
  Forall2 (opt_rel relisted) (entries phd sel) (entries phd' sel) /\
  forall e, In e (selected_entries (entries phd sel)) \/ In e (selected_entries (entries phd' sel)) -> good_entry d e /\ complete e.
Proof.
  intros ph ph' F. induction F as [|p p' ph ph' (m & v & S) F IH]; intros phd phd' sel L L' Q Q' SN EV; inversion L as [|? [q de] ? phd1 (L1 & L2) L3]; subst; inversion L' as [|? [q' de'] ? phd1' (L1' & L2') L3']; subst.
  - cbn. split. constructor. intros e [[]|[]].
  - cbn [fst snd] in *. subst q q'. inversion Q as [|? ? Q1 Q2]; subst. inversion Q' as [|? ? Q1' Q2']; subst.
    destruct sel as [|s sel]; cbn [entries]. { split. constructor. intros e [[]|[]]. }
    destruct (IH phd1 phd1' sel L3 L3' Q2 Q2') as (A & B). { intros x [X|X]; apply SN; cbn; auto. } { intros; apply (EV gi gj i); right; auto. }
    destruct s as [[gi gj]|].
    + split.
      * constructor; auto. cbn. exists m, v. split. apply wrap_placed; auto. left. split; intros i _; apply (EV gi gj i); left; auto.
      * cbn [selected_entries]. assert (X : forall p de, plain p -> sane_phase d p -> phase_lattice (wrap_phase p) = Ok de -> good_entry d (mkEnt (wrap_phase p) de gi gj) /\ complete (mkEnt (wrap_phase p) de gi gj)).
        { intros p0 de0 PP SS LL. split. split. exact LL. apply wrap_sane; auto. split. apply wrap_one; auto. apply PP. }
        intros e [[<-|I]|[<-|I]]; auto. apply X; auto. apply SN; cbn; auto. apply X; auto. apply SN; cbn; auto.
    + split. constructor; cbn; auto. exact B.
Qed.
Lemma sets_same phd phd' sets : (forall s, In s sets -> exists f0, forall fuel, (f0 <= fuel)%nat -> determine fuel (cs_data s) (entries phd' (cs_sel s)) = determine fuel (cs_data s) (entries phd (cs_sel s))) ->
  exists f0, forall fuel, (f0 <= fuel)%nat -> forall acc : Z * list (Z * Z * list num),
  ofold (fun acc s => obind (determine fuel (cs_data s) (entries phd' (cs_sel s))) (fun r => let '(nfmin, nfmax, t) := r in Ok (fst acc + (nfmax - nfmin + 1), snd acc ++ [r])%Z)) sets acc =
  ofold (fun acc s => obind (determine fuel (cs_data s) (entries phd (cs_sel s))) (fun r => let '(nfmin, nfmax, t) := r in Ok (fst acc + (nfmax - nfmin + 1), snd acc ++ [r])%Z)) sets acc.
Proof.
  induction sets as [|s sets IH]; intros H.
  - exists 0%nat. auto.
  - destruct IH as (f1 & A). { intros; apply H; right; auto. } destruct (H s (or_introl eq_refl)) as (f2 & B). exists (Nat.max f1 f2). intros fuel Hf acc. cbn [ofold]. rewrite (B fuel) by lia.
    destruct (determine fuel (cs_data s) (entries phd (cs_sel s))) as [[[x y] z]| | |]; cbn [obind]; auto. apply A. lia.
Qed.
Lemma theory_same ph ph' sets : Forall2 same_sample ph ph' -> Forall plain ph -> Forall plain ph' ->
  (forall s, In s sets -> good_grid (cs_data s) /\ off_origin (cs_data s) /\ good_filter (cs_data s) /\ everything s /\ forall p, In p ph \/ In p ph' -> sane_phase (cs_data s) p) ->
  exists f0, forall fuel, (f0 <= fuel)%nat -> exists n r, fit_theory fuel ph sets = Ok (map wrap_phase ph, n, r) /\ fit_theory fuel ph' sets = Ok (map wrap_phase ph', n, r).
Proof.
  intros F Q Q' H. destruct (lats ph Q) as (phd & L & E), (lats ph' Q') as (phd' & L' & E').
  destruct (sets_same phd phd' sets) as (f1 & A).
  { intros s I. destruct (H s I) as (G & O & _ & EV & SN). destruct (entries_same (cs_data s) ph ph' F phd phd' (cs_sel s) L L' Q Q' SN EV) as (X & Y).
    apply (relisted_pdf (cs_data s) G O); auto. }
  destruct (fit_theory_ok ph) with (sets := sets) as (f2 & B). { eapply Forall_impl; [|exact Q]. intros p Hp. apply Hp. } { apply Forall_forall. intros s I. split; apply H; auto. }
  exists (Nat.max f1 f2). intros fuel Hf. destruct (B fuel ltac:(lia)) as (ph1 & n & r & D & _). pose proof D as D0. unfold fit_theory in D. rewrite E in D. cbn [obind app] in D.
  assert (PH : ph1 = map wrap_phase ph). { destruct (ofold _ sets _); try discriminate. cbn [obind] in D. injection D; auto. } subst ph1.
  exists n, r. split; auto. unfold fit_theory. rewrite E'. cbn [obind app]. rewrite A by lia.
  destruct (ofold _ sets _); try discriminate. cbn [obind] in *. injection D as <- <-. auto.
Qed.

(** phases in another order *)
Definition ent_of (x : cphase * option ((nat -> bool) * (nat -> bool))) : option centry :=
  match snd x, phase_lattice (wrap_phase (fst x)) with Some (gi, gj), Ok de => Some (mkEnt (wrap_phase (fst x)) de gi gj) | _, _ => None end.
Lemma entries_map ph phd : Forall2 lat_of ph phd -> forall sel, entries phd sel = map ent_of (combine ph sel).
Proof.
  intros F. induction F as [|p [q de] ph phd (E & L) F IH]; intros [|s sel]; cbn [entries combine map]; auto. rewrite IH. f_equal. unfold ent_of. cbn [fst snd] in *. rewrite L, E. destruct s as [[gi gj]|]; auto.
Qed.
Lemma lats' ph : Forall calculable ph -> exists phd, Forall2 lat_of ph phd /\
  forall acc, ofold (fun acc p => obind (phase_lattice p) (fun de => Ok (acc ++ [(p, de)]))) (map wrap_phase ph) acc = Ok (acc ++ phd).
Proof.
  intros F. induction F as [|p ph ((de & L) & _) F (phd & H & E)].
  - exists []. split. constructor. intros acc. rewrite app_nil_r. auto.
  - rewrite <- wrap_lattice in L. exists ((wrap_phase p, de) :: phd). split. constructor; auto. split; auto. intros acc. cbn [map ofold]. rewrite L. cbn [obind]. rewrite E, <- app_assoc. auto.
Qed.
Lemma theory_perm ph ph' sets sets' : Forall calculable ph -> Forall calculable ph' ->
  Forall2 (fun s s' => cs_data s' = cs_data s /\ Permutation (combine ph (cs_sel s)) (combine ph' (cs_sel s'))) sets sets' ->
  (forall s, In s sets -> good_grid (cs_data s) /\ off_origin (cs_data s) /\ good_filter (cs_data s) /\ forall p, In p ph -> sane_phase (cs_data s) p) ->
  exists f0, forall fuel, (f0 <= fuel)%nat -> exists n r, fit_theory fuel ph sets = Ok (map wrap_phase ph, n, r) /\ fit_theory fuel ph' sets' = Ok (map wrap_phase ph', n, r).
Proof.
  intros Q Q' F H. destruct (lats' ph Q) as (phd & L & E), (lats' ph' Q') as (phd' & L' & E').
  assert (A : exists f0, forall fuel, (f0 <= fuel)%nat -> forall acc : Z * list (Z * Z * list num),
  ofold (fun acc s => obind (determine fuel (cs_data s) (entries phd' (cs_sel s))) (fun r => let '(nfmin, nfmax, t) := r in Ok (fst acc + (nfmax - nfmin + 1), snd acc ++ [r])%Z)) sets' acc =
  ofold (fun acc s => obind (determine fuel (cs_data s) (entries phd (cs_sel s))) (fun r => let '(nfmin, nfmax, t) := r in Ok (fst acc + (nfmax - nfmin + 1), snd acc ++ [r])%Z)) sets acc).
  { clear E E' Q Q'. induction F as [|s s' sets sets' (D & P) F IH].
    - exists 0%nat. auto.
    - destruct IH as (f1 & A). { intros; apply H; right; auto. } destruct (H s (or_introl eq_refl)) as (G & O & _ & SN).
      destruct (permuted_pdf (cs_data s) G O (entries phd (cs_sel s)) (entries phd' (cs_sel s'))) as (f2 & B).
      { rewrite (entries_map ph phd L), (entries_map ph' phd' L'). apply Permutation_map; auto. }
      { clear - L SN. revert L SN. generalize (cs_sel s). intros sel L SN. revert sel. induction L as [|p [q de] ph phd (E & LL) L IH]; intros [|x sel] e; cbn [entries selected_entries]; try contradiction.
        cbn [fst snd] in *. subst q. destruct x as [[gi gj]|]; cbn [selected_entries]. intros [<-|I]. split. exact LL. apply wrap_sane, SN. left; auto. eapply IH; eauto. intros; apply SN; right; auto.
        apply IH. intros; apply SN; right; auto. }
      exists (Nat.max f1 f2). intros fuel Hf acc. cbn [ofold]. rewrite D, (B fuel) by lia.
      destruct (determine fuel (cs_data s) (entries phd (cs_sel s))) as [[[x y] z]| | |]; cbn [obind]; auto. apply A. lia. }
  destruct A as (f1 & A).
  destruct (fit_theory_ok ph Q) with (sets := sets) as (f2 & B). { apply Forall_forall. intros s I. split; apply H; auto. }
  exists (Nat.max f1 f2). intros fuel Hf. destruct (B fuel ltac:(lia)) as (ph1 & n & r & D & _). pose proof D as D0. unfold fit_theory in D. rewrite E in D. cbn [obind app] in D.
  assert (PH : ph1 = map wrap_phase ph). { destruct (ofold _ sets _); try discriminate. cbn [obind] in D. injection D; auto. } subst ph1.
  exists n, r. split; auto. unfold fit_theory. rewrite E'. cbn [obind app]. rewrite A by lia.
  destruct (ofold _ sets _); try discriminate. cbn [obind] in *. injection D as <- <-. auto.
Qed.
