(** Cases meeting the hypotheses of the theorems on derivatives. *)
From Coq Require Import List Arith ZArith Reals Bool Lia Lra Psatz Ascii.
From Verif Require Import Base RSum MathModel MetricModel MetricSpec MetricProof SphereModel SphereSpec PdfModel PdfSpec PdfProof PdfGeo PdfSum PdfPeak PdfPhase PdfTotal PdfEx PdfFinal LayoutModel LayoutSpec LayoutProof DerivModel DerivSpec DerivRow DerivWit.
Import ListNotations.
Local Open Scope R_scope.

(** seven columns *)
Definition seven : list rvar := [PV 0 (FA0 1); PV 0 FDelta2; AV 0 0 (FPos 1); AV 0 0 (FU 1); AV 0 0 FOcc; SV 0 FDscale; SV 0 FQbroad].
Fixpoint place (l : list rvar) (n : nat) (v : rvar) : option nat :=
  match l with [] => None | w :: l => if veqb w v then Some n else place l (S n) v end.
Lemma place_spec l : forall n v c, place l n v = Some c -> (n <= c < n + length l)%nat /\ nth_error l (c - n) = Some v.
Proof.
  induction l as [|w l IH]; intros n v c H; cbn in H; [discriminate|]. destruct (veqb w v) eqn:Q.
  - injection H as <-. apply veqb_eq in Q. subst. rewrite Nat.sub_diag. cbn. split; auto. lia.
  - apply IH in H as [H1 H2]. cbn [length]. split. lia. replace (c - n)%nat with (S (c - S n)) by lia. exact H2.
Qed.
Lemma place_fits l natoms nset : columns_fit (place l 0) natoms nset (repeat true (length l)).
Proof.
  split.
  - intros v w c _ _ A B. apply place_spec in A as [_ A], B as [_ B]. congruence.
  - intros v c _ A. apply place_spec in A as [A _]. rewrite nth_error_nth' with (d := true). rewrite nth_repeat. auto. rewrite repeat_length. lia.
Qed.
Lemma rows_ready qb ps : exists de, phase_lattice (row 90 ps [1]) = Ok de /\ up_to_date (ent (row 90 ps [1]) de) /\ sane_phase (rdata qb) (row 90 ps [1]).
Proof.
  assert (HT : cos (PI / 180 * 90) = 0 \/ cos (PI / 180 * 90) = - (1 / 2)) by (left; apply c90).
  assert (HC : - (1 / 2) <= cos (PI / 180 * 90) <= 0) by (rewrite c90; lra). assert (HO : [1] = [1] \/ [1] = [1; 0]) by auto. assert (HG : 0 < 90 < 180) by lra.
  destruct (row_lat 90 ps [1] HT) as (de & L). exists de. split; auto. split. exact L. apply row_sane; auto.
Qed.

Definition ready (d : cdata) (psel : list (option centry)) (find : rvar -> option nat) (natoms : list nat) (nset npar : nat) (ly : layout) (vref : list bool) (is : nat) : Prop :=
  good_grid d /\ off_origin d /\ good_filter d /\ (forall e, In e (selected_entries psel) -> up_to_date e /\ sane_phase d (en_ph e)) /\
  counts_fit psel natoms /\ (is < nset)%nat /\ fit_setup find natoms nset npar = Ok ly /\ columns_fit find natoms nset vref.
Lemma row_case : exists de ly, let d := rdata 1 in let psel := [Some (ent (row 90 1 [1]) de)] in
  ready d psel (place seven 0) [1%nat] 1 (phase_size [1%nat] + 3) ly (repeat true 7) 0 /\
  forall W C, right_limits d psel W C -> forall v, In v seven -> exists_var [1%nat] 1 v /\ claimed 0 d psel W v /\ exists x, value_is 0 v d psel x.
Proof.
  destruct (rows_ready 1 1) as (de & L & U & S). destruct (layout_ok (place seven 0) [1%nat] 1 (phase_size [1%nat] + 3)) as [LO _]. destruct (LO eq_refl) as (ly & FS & _).
  exists de, ly. cbv zeta. split.
  - split. apply rgrid. split. apply roff. split. apply rfilter. split. intros e [<-|[]]. auto. split. intros [|[|ip]] e E; cbn in E; try discriminate. injection E as <-. reflexivity.
    split. lia. split. exact FS. apply place_fits.
  - intros W C RL v IV.
    assert (OR : off_rcut (row 90 1 [1]) (W 0%nat)).
    { intros i j t I. destruct (RL 0%nat _ eq_refl) as [(_ & PL & _) _]. apply PL in I. destruct I as (_ & _ & _ & (I & _)). cbn [row cp_rcut]. cbn [ent en_ph] in I. lra. }
    assert (RA : right_angles (row 90 1 [1])). { intros k K. destruct k as [|[|[|k]]]; try lia; reflexivity. }
    cbn [seven In] in IV. repeat (destruct IV as [<-|IV]; [split; [cbn; repeat split; lia|]; split;
      [cbn [claimed]; try (intros e E; injection E as <-); cbn [ent en_ph]; auto|
       eexists; cbn [value_is]; try (intros e E; injection E as <-; reflexivity); intros _; reflexivity]|]). 
    + cbn. lra.
    + intros _. cbn. lra.
    + intros _ e e' r [<-|[]] [<-|[]] _. reflexivity.
    + destruct IV.
Qed.
(** two phases with different factors *)
Lemma two_case : exists de1 de2 ly, let d := rdata 1 in let e2 := ent (row 90 2 [1]) de2 in let psel := [Some (ent (row 90 1 [1]) de1); Some e2] in
  ready d psel (place [SV 0 FQbroad] 0) [1%nat; 1%nat] 1 (phase_size [1%nat; 1%nat] + 3) ly [true] 0 /\
  place [SV 0 FQbroad] 0 (SV 0 FQbroad) = Some 0%nat /\ last_selected psel e2 /\ ~ same_factors d psel.
Proof.
  destruct (rows_ready 1 1) as (de1 & L1 & U1 & S1). destruct (rows_ready 1 2) as (de2 & L2 & U2 & S2).
  destruct (layout_ok (place [SV 0 FQbroad] 0) [1%nat; 1%nat] 1 (phase_size [1%nat; 1%nat] + 3)) as [LO _]. destruct (LO eq_refl) as (ly & FS & _).
  exists de1, de2, ly. cbv zeta. split; [|split; [reflexivity|split]].
  - split. apply rgrid. split. apply roff. split. apply rfilter. split. intros e [<-|[<-|[]]]; auto. split. intros [|[|[|ip]]] e E; cbn in E; try discriminate; injection E as <-; reflexivity.
    split. lia. split. exact FS. apply (place_fits [SV 0 FQbroad]).
  - exists 1%nat. split. reflexivity. intros [|[|[|k]]] e' E; cbn in E; try discriminate; lia.
  - intros H. specialize (H _ _ 1 (or_introl eq_refl) (or_intror (or_introl eq_refl)) ltac:(lra)).
    assert (N1 : occ_sum (row 90 1 [1]) = 1) by (apply row_occ; auto). assert (N2 : occ_sum (row 90 2 [1]) = 1) by (apply row_occ; auto).
    unfold phase_factor in H. cbn [ent en_ph] in H. rewrite N1, N2 in H.
    assert (E : envelope (rdata 1) (row 90 1 [1]) 1 = 1 /\ envelope (rdata 1) (row 90 2 [1]) 1 = 1).
    { unfold envelope. cbn [rdata cd_qdamp row cp_spd cp_stepcut]. destruct (Rlt_dec 0 0); lra. }
    destruct E as [E1 E2]. rewrite E1, E2 in H. cbn in H. lra.
Qed.
