(** Cases for the scattering factors of the atoms. *)
From Coq Require Import Ascii String List Arith ZArith Reals Bool Lia Lra.
From Verif Require Import Base Util RSum ParserModel MetricModel PdfModel ElementTable ScatModel ScatSpec ScatProof ScatEx PdfSpec PdfProof PdfEx PdfFinal FactModel FactSpec FactProof FactPdf FactFinal.
Import ListNotations.
Local Open Scope R_scope.

(** sodium chloride, another structure with an unknown symbol, sodium; the X-ray
    factor of sodium is set in phase 0 *)
Definition na_cl : list text := [chars "Na"; chars "CL"; chars "sodium"].
Definition ex_calls : list kcall :=
  [KGetNone "X" (chars "Na"); KRead na_cl; KRead [chars "Na"; chars "Xx"]; KRead [chars "NA"]; KSet 0 "X" (chars "sODium") 5].
Lemma known_na : known (chars "Na") /\ known (chars "CL") /\ known (chars "sodium") /\ known (chars "NA").
Proof. repeat split; eexists; apply lookup_ok; vm_compute; reflexivity. Qed.
Definition ex_phases : list (list text) := [na_cl; [chars "NA"]].
Lemma ex_history : history (rev ex_calls) [SetScat 0 "X" (chars "sODium") 5; NewPhase; NewPhase] ex_phases.
Proof.
  destruct known_na as (A & B & C & D). unfold ex_calls. cbn [rev app]. apply H_set.
  apply (H_read _ _ [na_cl] [chars "NA"]). repeat constructor; auto.
  apply H_unread. { intros F. inversion F as [|? ? _ F2]; subst. inversion F2 as [|? ? [e X] _]; subst. exact (ex_none e X). }
  apply (H_read _ _ [] na_cl). repeat constructor; auto. apply H_none. constructor.
Qed.
Lemma means_NA : means (chars "NA") sodium. Proof. apply ex_mean. Qed.
Lemma means_Na : means (chars "Na") sodium. Proof. apply lookup_ok; vm_compute; reflexivity. Qed.
Lemma means_sodium : means (chars "sodium") sodium. Proof. apply lookup_ok; vm_compute; reflexivity. Qed.
Lemma ex_sym : symbol_of ex_phases 0 0 (chars "Na") /\ symbol_of ex_phases 0 2 (chars "sodium") /\ symbol_of ex_phases 1 0 (chars "NA").
Proof. repeat split; eexists; split; reflexivity. Qed.
(** both sodium atoms of phase 0 have the new factor, that of phase 1 the old one *)
Lemma ex_atoms : atom_factor (krun elements ex_calls) 0 0 "x" = Ok 5 /\ atom_factor (krun elements ex_calls) 0 2 "X" = Ok 5 /\ atom_factor (krun elements ex_calls) 1 0 "x" = Ok 11.
Proof.
  destruct ex_sym as (S1 & S2 & S3). pose proof ex_history as H. pose proof ex_mean as (A & _ & _).
  assert (F0 : factor_is 0 sodium XRay [SetScat 0 "X" (chars "sODium") 5; NewPhase; NewPhase] 5) by (apply FI_set; auto; cbn; auto).
  assert (F1 : factor_is 1 sodium XRay [SetScat 0 "X" (chars "sODium") 5; NewPhase; NewPhase] 11).
  { replace 11 with (standard sodium XRay) by (unfold standard; cbn; field). apply FI_set_other. left; lia. apply FI_new, FI_new, FI_start. }
  split; [|split].
  - destruct (factor_ok _ _ _ _ _ _ _ "x"%char XRay H S1 means_Na ltac:(cbn; auto)) as (v & -> & F). f_equal. eapply factor_unique; eauto.
  - destruct (factor_ok _ _ _ _ _ _ _ "X"%char XRay H S2 means_sodium ltac:(cbn; auto)) as (v & -> & F). f_equal. eapply factor_unique; eauto.
  - destruct (factor_ok _ _ _ _ _ _ _ "x"%char XRay H S3 means_NA ltac:(cbn; auto)) as (v & -> & F). f_equal. eapply factor_unique; eauto.
Qed.
Lemma ex_unrelated : unrelated ex_phases 1 XRay (KSet 0 "X" (chars "sODium") 7) /\ unrelated ex_phases 0 XRay (KReset 0 (chars "D")) /\ unrelated ex_phases 0 XRay (KSet 0 "N" (chars "Na") 7) /\
  ~ unrelated ex_phases 0 XRay (KSet 0 "X" (chars "sODium") 7).
Proof.
  split; [left; lia|split; [|split]].
  - right. intros i q e (syms & N1 & N2) M1 M2. injection N1 as <-.
    assert (X : pt_lookup elements q <> pt_lookup elements (chars "D")).
    { destruct i as [|[|[|i]]]; cbn in N2; try (destruct i; discriminate N2); injection N2 as <-; vm_compute; discriminate. }
    apply X. apply lookup_ok in M1, M2. congruence.
  - right; left. cbn. intros [X|X]; discriminate.
  - intros [X|[X|X]]. congruence. apply X. cbn. auto. apply (X 0%nat (chars "Na") sodium). apply ex_sym. apply means_Na. apply ex_mean.
Qed.

(** ** polonium and neutrons *)
Definition patom (f occ : R) : catom := mkAt (fun _ => 1 / 2) (fun k => if (k <? 3)%nat then 1 / 2 else 0) occ (fun _ => f).
Definition po_calls : list kcall := [KRead [chars "Po"]].
Definition polonium : element := mkEl "Po" "Polonium" 84%Z (209%Z, 0%nat) (84%Z, 0%nat) (0%Z, 0%nat).
Lemma po_in : means (chars "Po") polonium.
Proof. apply lookup_ok. vm_compute. reflexivity. Qed.
Lemma po_factor : atom_factor (krun elements po_calls) 0 0 "N" = Ok 0.
Proof.
  assert (H : history (rev po_calls) [NewPhase] [[chars "Po"]]). { apply (H_read [] [] [] [chars "Po"]). constructor; auto. exists polonium. apply po_in. constructor. }
  destruct (factor_ok po_calls _ _ 0 0 (chars "Po") polonium "N"%char Neutron H) as (v & -> & F).
  { exists [chars "Po"]. auto. } { apply po_in. } { cbn; auto. }
  f_equal. eapply factor_unique. exact F. replace 0 with (standard polonium Neutron) by (unfold standard; cbn; field). apply FI_new, FI_start.
Qed.
Lemma cub_ok atoms de : phase_lattice (cub atoms) = Ok de -> cell_ok (ent (cub atoms) de).
Proof. intros L. split. exact L. split. apply cub_cell. split. intros; cbn; lia. cbn. lra. Qed.
Lemma po_null : null_average xdata (cub [patom 0 1]). Proof. split. cbn. lia. cbn. ring. Qed.
Lemma po_nan : exists de f0, phase_lattice (cub [patom 0 1]) = Ok de /\ has_factors (krun elements po_calls) (cd_type xdata) [Some (ent (cub [patom 0 1]) de)] /\
  (forall fuel, (f0 <= fuel)%nat -> exists f1 f2 t, determine fuel xdata [Some (ent (cub [patom 0 1]) de)] = Ok (f1, f2, t) /\ spoilt xdata t).
Proof.
  destruct (cub_lat [patom 0 1]) as (de & L). destruct (null_nan xdata xgrid [Some (ent (cub [patom 0 1]) de)] xfilter) as (f0 & Hf).
  { intros e [<-|[]]. apply cub_ok; auto. } { eexists. split. left; reflexivity. apply po_null. }
  exists de, f0. split; auto. split; auto. intros [|p] e E; [|destruct p; discriminate]. cbn in E. injection E as <-. split.
  - assert (H : history (rev po_calls) [NewPhase] [[chars "Po"]]). { apply (H_read [] [] [] [chars "Po"]). constructor; auto. exists polonium. apply po_in. constructor. }
    destruct (krun_inv _ _ _ H) as (_ & LL & P). destruct (kw_ph (krun elements po_calls)) as [|k l] eqn:E; [discriminate LL|]. exists k. split; auto.
    rewrite (F2_length _ _ _ (P 0%nat k [chars "Po"] eq_refl eq_refl)). reflexivity.
  - intros i Hi. cbn in Hi. destruct i; [|lia]. exact po_factor.
Qed.
(** X-rays *)
Definition xr_data : cdata := mkCd 1 3 4 1 0 0 0 1 "X"%char.
Lemma po_xray : xray_phase xr_data (cub [patom 84 1; patom 11 0]).
Proof.
  split; [|split].
  - intros i Hi. cbn in Hi. destruct i as [|[|i]]; [exists polonium|exists sodium|lia].
    split. apply po_in. unfold standard. cbn. field. split. apply means_Na. unfold standard. cbn. field.
  - intros i Hi. cbn in Hi. destruct i as [|[|i]]; cbn; try lra. lia.
  - exists 0%nat. cbn. split. lia. lra.
Qed.
(** factors 2 and 6 instead of 1 and 3 *)
Lemma ex_scaled de : same_but_factors "N" (Some (ent (cub [patom 1 1; patom 3 1]) de)) (Some (ent (cub [patom 2 1; patom 6 1]) de)).
Proof. exists [patom 2 1; patom 6 1], 2. split. lra. split; [|reflexivity]. repeat constructor; cbn; ring. Qed.
(** the X-ray factor of polonium does not matter for neutrons *)
Definition po_x : kcall := KSet 0 "X" (chars "Po") 5.
Lemma po_history : history (rev po_calls) [NewPhase] [[chars "Po"]].
Proof. apply (H_read [] [] [] [chars "Po"]). constructor; auto. exists polonium. apply po_in. constructor. Qed.
Lemma po_unrelated : exists de, phase_lattice (cub [patom 0 1]) = Ok de /\ radiation_of (cd_type xdata) Neutron /\
  unrelated [[chars "Po"]] 0 Neutron po_x /\ has_factors (krun elements po_calls) (cd_type xdata) [Some (ent (cub [patom 0 1]) de)] /\
  has_factors (krun elements (po_calls ++ [po_x])) (cd_type xdata) [Some (ent (cub [patom 0 1]) de)] /\
  Forall2 same_structure [Some (ent (cub [patom 0 1]) de)] [Some (ent (cub [patom 0 1]) de)] /\
  atom_factor (krun elements (po_calls ++ [po_x])) 0 0 "X" = Ok 5.
Proof.
  destruct po_nan as (de & f0 & L & HF & _). exists de. pose proof po_history as H.
  assert (U : unrelated [[chars "Po"]] 0 Neutron po_x). { right; left. cbn. intros [X|X]; discriminate. }
  assert (H2 : history (rev (po_calls ++ [po_x])) [SetScat 0 "X" (chars "Po") 5; NewPhase] [[chars "Po"]]) by (apply H_set; exact H).
  split; auto. split. cbn; auto. split; auto. split; auto. split; [|split].
  - intros [|p] e E; [|destruct p; discriminate]. cbn in E. injection E as <-. split.
    + destruct (krun_inv _ _ _ H2) as (_ & LL & P). destruct (kw_ph (krun elements (po_calls ++ [po_x]))) as [|k l] eqn:E; [discriminate LL|]. exists k. split; auto.
      rewrite (F2_length _ _ _ (P 0%nat k [chars "Po"] eq_refl eq_refl)). reflexivity.
    + intros i Hi. cbn in Hi. destruct i; [|lia]. change (cd_type xdata) with "N"%char. rewrite (unrelated_ok po_calls _ _ 0 0 (chars "Po") "N"%char Neutron po_x H) by (auto; try (exists [chars "Po"]; auto); cbn; auto). exact po_factor.
  - constructor; auto. exists (cp_atoms (cub [patom 0 1])). split; [|reflexivity]. repeat constructor.
  - destruct (factor_ok _ _ _ 0%nat 0%nat (chars "Po") polonium "X"%char XRay H2) as (v & -> & F). exists [chars "Po"]; auto. apply po_in. cbn; auto.
    f_equal. eapply factor_unique. exact F. apply FI_set; cbn; auto. apply po_in.
Qed.
