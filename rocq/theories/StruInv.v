(** What every structure that was read satisfies. *)
From Coq Require Import Ascii String List Arith ZArith Reals Bool Lia Lra.
From Verif Require Import Base MathModel MetricModel MetricSpec MetricProof ParserModel ParserLex PdfModel PdfSpec PdfProof DataModel DataSpec DataProof ElementTable ScatModel ScatSpec ScatProof FmtModel FmtSpec FmtProof FmtGen StruModel StruSpec StruLex StruHead StruIns.
Import ListNotations.
Local Open Scope R_scope.

Definition head_good (p : sphase) : Prop :=
  one_line (sp_name p) /\ match sp_name p with [] => True | c :: _ => c <> " "%char /\ c <> tab end /\ wordy (sp_spcgr p) /\
  Forall dbl_ok [sp_pscale p; sp_delta2 p; sp_delta1 p; sp_sratio p; sp_rcut p; sp_spdiam p; sp_stepcut p] /\
  dbls 3 (sp_a0 p) /\ dbls 3 (sp_win p) /\ dbls 3 (sp_da0 p) /\ dbls 3 (sp_dwin p) /\
  length (sp_icc p) = 3%nat /\ Forall int_fits (sp_icc p) /\ int_fits (sp_ncatoms p) /\ sp_dev p = repeat d_zero 5.

Lemma dbl_ok_0 : dbl_ok d_zero. Proof. unfold dbl_ok, d_zero; simpl; lra. Qed.
Lemma dbl_ok_1 : dbl_ok d_one. Proof. unfold dbl_ok, d_one; simpl; lra. Qed.
Lemma z3_ok : dbls 3 z3. Proof. split; auto. repeat (apply Forall_cons; [apply dbl_ok_0|]); apply Forall_nil. Qed.
Lemma pow10_pos e : 0 < powerRZ 10 e. Proof. apply powerRZ_lt; lra. Qed.
Lemma scan_dbl_ok l d r : scan_dbl l = Some (d, r) -> dbl_ok d.
Proof.
  unfold scan_dbl. destruct (sign_split (skipws l)) as [n m]. destruct (scan_float m) as [[[k e] q]|] eqn:E; [|discriminate]. intros H. injection H as <- _.
  unfold dbl_ok. cbn [d_mag]. unfold dec_val. apply Rmult_le_pos; [|left; apply pow10_pos]. apply IZR_le.
  revert E. unfold scan_float. destruct (span_digits m) as [d1 r1] eqn:E1. apply span_digits_spec in E1 as (A & B & C).
  destruct (scan_frac r1) as [d2 r2] eqn:E2. apply scan_frac_rest in E2 as (w & E2 & F2 & N2); auto.
  destruct (d1 ++ d2) as [|x y] eqn:Ed; [discriminate|]. destruct (scan_exp r2) as [[e' r3]|]; [|discriminate]. intros H. injection H as <- _ _.
  apply digits_val_nonneg. rewrite <- Ed. apply Forall_app; auto.
Qed.
Lemma dget_ok l d r : dget l = Some (d, r) -> dbl_ok d.
Proof. unfold dget. destruct (scan_dbl l) as [[x q]|] eqn:E; [|discriminate]. intros H; injection H as <- _. eapply scan_dbl_ok; eauto. Qed.
Lemma dgets_ok n : forall l ds r, dgets n l = Some (ds, r) -> length ds = n /\ Forall dbl_ok ds.
Proof.
  induction n as [|n IH]; intros l ds r; cbn [dgets]. intros H; injection H as <- _; auto.
  destruct (dget l) as [[d q]|] eqn:E; [|discriminate]. destruct (dgets n q) as [[x y]|] eqn:E2; [|discriminate]. intros H; injection H as <- _.
  destruct (IH _ _ _ E2) as [A B]. split. cbn; congruence. constructor; auto. eapply dget_ok; eauto.
Qed.
Lemma scan_int_fits l d r : scan_int l = Some (d, r) -> int_fits d.
Proof.
  unfold scan_int. destruct (sign_split _) as [n m]. destruct (span_digits m) as [[|c ds] q]; [discriminate|]. cbv zeta.
  destruct (Z.leb_spec (-2147483648) (if n then - digits_val (c :: ds) else digits_val (c :: ds))); [|discriminate].
  destruct (Z.leb_spec (if n then - digits_val (c :: ds) else digits_val (c :: ds)) 2147483647); [|discriminate].
  cbn [andb]. intros Q. injection Q as <- _. split; auto.
Qed.
Lemma igets_ok n : forall l ds r, igets n l = Some (ds, r) -> length ds = n /\ Forall int_fits ds.
Proof.
  induction n as [|n IH]; intros l ds r; cbn [igets]. intros H; injection H as <- _; auto.
  unfold iget. destruct (scan_int l) as [[d q]|] eqn:E; [|discriminate]. destruct (igets n _) as [[x y]|] eqn:E2; [|discriminate]. intros H; injection H as <- _.
  destruct (IH _ _ _ E2) as [A B]. split. cbn; congruence. constructor; auto. eapply scan_int_fits; eauto.
Qed.
Lemma six_split ds : length ds = 6%nat -> Forall dbl_ok ds -> dbls 3 (firstn 3 ds) /\ dbls 3 (skipn 3 ds).
Proof.
  intros L F. split; split; [rewrite firstn_length; lia| |rewrite skipn_length; lia|].
  - rewrite Forall_forall in *. intros x I. apply F. rewrite <- (firstn_skipn 3 ds). apply in_or_app; auto.
  - rewrite Forall_forall in *. intros x I. apply F. rewrite <- (firstn_skipn 3 ds). apply in_or_app; auto.
Qed.
Lemma lstrip_sub c l : In c (lstrip l) -> In c l.
Proof. destruct (lstrip_spec l) as (b & E & _). intros I. rewrite E. apply in_or_app; auto. Qed.
Definition rest_in (rest : option text) (l : text) : Prop := forall c, In c (rest_text rest) -> In c l.
Ltac hg := split; [|split; [|split; [|split; [|split; [|split; [|split; [|split; [|split; [|split; [|split]]]]]]]]]]; try assumption; try (repeat (apply Forall_cons; [assumption|]); apply Forall_nil).
Lemma run_good cmd rest l s h : head_good (h_ph s) -> one_line l -> rest_in rest l -> run_keyword cmd rest s = Ok h -> head_good (h_ph h).
Proof.
  intros G O RI. pose proof G as (N1 & N2 & SW & D7 & A0 & WI & DA & DW & IL & IF & NF & DV). rewrite !Forall_cons_iff in D7. destruct D7 as (P1 & P2 & P3 & P4 & P5 & P6 & P7 & _).
  unfold run_keyword.
  destruct (text_eqb cmd (chars "format")); [intros H; injection H as <-; exact G|].
  destruct (text_eqb cmd (chars "scale")).
  { unfold on_vals. destruct (dget _) as [[d r]|] eqn:E; intros H; try discriminate; injection H as <-. apply dget_ok in E.
    hg. cbn [h_ph set_scale sp_dev]. rewrite DV. reflexivity. }
  destruct (text_eqb cmd (chars "sharp")).
  { unfold read_sharp. destruct (dgets 3 _) as [[[|a [|b [|c [|]]]] r]|] eqn:E; try discriminate. apply dgets_ok in E. destruct E as [_ E].
    rewrite !Forall_cons_iff in E. destruct E as (E1 & E2 & E3 & _). pose proof dbl_ok_0.
    destruct (dget r) as [[v q]|] eqn:E4; intros Q; injection Q as <-; try (apply dget_ok in E4);
    (hg; cbn [h_ph set_sharp sp_dev]; rewrite DV; reflexivity). }
  destruct (text_eqb cmd (chars "spcgr")).
  { destruct (get_word _) as [[w r]|] eqn:E; intros H; injection H as <-; [|exact G]. apply get_word_some in E. destruct E as (b & _ & _ & W & _).
    hg. }
  destruct (text_eqb cmd (chars "shape")).
  { unfold read_shape, on_vals. destruct (get_word _) as [[w r]|]; [|discriminate]. destruct (text_eqb w _).
    destruct (dget r) as [[d q]|] eqn:E; intros H; try discriminate; injection H as <-. apply dget_ok in E. hg.
    destruct (text_eqb w _); [|discriminate].
    destruct (dget r) as [[d q]|] eqn:E; intros H; try discriminate; injection H as <-. apply dget_ok in E. hg. }
  destruct (text_eqb cmd (chars "title")).
  { intros H. injection H as <-. cbn [h_ph]. hg.
    - cbn [set_name sp_name]. intros I. apply lstrip_sub in I. destruct rest as [[|c r]|]; cbn [rest_of_line] in I; auto.
    - cbn [set_name sp_name]. destruct (lstrip_spec (rest_of_line rest (sp_name (h_ph s)))) as (b & _ & _ & M). exact M. }
  destruct (text_eqb cmd (chars "cell")).
  { unfold on_vals. destruct (dgets _ _) as [[ds r]|] eqn:E; intros H; try discriminate; injection H as <-. apply dgets_ok in E. destruct E as [E1 E2].
    destruct (six_split _ E1 E2) as [S1 S2]. hg. }
  destruct (text_eqb cmd (chars "dcell")).
  { unfold on_vals. destruct (dgets _ _) as [[ds r]|] eqn:E; intros H; try discriminate; injection H as <-. apply dgets_ok in E. destruct E as [E1 E2].
    destruct (six_split _ E1 E2) as [S1 S2]. hg. }
  destruct (text_eqb cmd (chars "ncell")).
  { unfold on_vals. destruct (igets _ _) as [[ds r]|] eqn:E; intros H; try discriminate; injection H as <-. apply igets_ok in E. destruct E as [E1 E2].
    destruct ds as [|i [|j [|k [|n [|]]]]]; try discriminate. rewrite !Forall_cons_iff in E2. destruct E2 as (F1 & F2 & F3 & F4 & _).
    hg. reflexivity. }
  intros H; injection H as <-; exact G.
Qed.
Lemma line_good h l h' : head_good (h_ph h) -> one_line l -> header_line h l = Ok (Some h') -> head_good (h_ph h').
Proof.
  intros G O. unfold header_line. destruct (get_word l) as [[w r]|] eqn:E; cbv zeta.
  - destruct (text_eqb w _); [discriminate|]. destruct (hash_line w); [intros H; injection H as <-; auto|].
    destruct (run_keyword w (Some r) h) as [h1| | |] eqn:Q; try discriminate. intros H; injection H as <-. apply (run_good w (Some r) l h); auto.
    intros c I. apply get_word_some in E. destruct E as (b & -> & _). apply in_or_app; right. apply in_or_app; right; auto.
  - destruct (text_eqb (h_cmd h) _); [discriminate|]. destruct (hash_line _); [intros H; injection H as <-; auto|].
    destruct (run_keyword _ None h) as [h1| | |] eqn:Q; try discriminate. intros H; injection H as <-. apply (run_good (h_cmd h) None l h); auto. intros c [].
Qed.
Lemma header_good n : forall t, (length t <= n)%nat -> forall f x h h' s, head_good (h_ph h) -> read_header f (mkStr t false) x h = Ok (h', s) -> head_good (h_ph h').
Proof.
  induction n as [|n IH]; intros t L f x h h' s G; (destruct f; [discriminate|]); cbn [read_header].
  - destruct t; [|cbn in L; lia]. intros H. injection H as <- _. auto.
  - destruct (split_at newline t) as [[l r]|] eqn:E.
    + apply split_some in E. destruct E as [-> O]. rewrite !getline_line by auto. cbn [negb]. rewrite app_length in *. cbn [length] in *.
      destruct (header_line h l) as [[h1|]| | |] eqn:Q; cbn [obind]; try discriminate.
      * intros H. apply IH in H; auto. lia. eapply line_good; eauto.
      * intros H. injection H as <- _. auto.
    + apply split_none in E. destruct t as [|c t]. intros H. injection H as <- _; auto. rewrite !getline_last by (auto; discriminate). cbn [negb].
      destruct (header_line h (c :: t)) as [[h1|]| | |] eqn:Q; cbn [obind]; try discriminate.
      * destruct f; [discriminate|]. cbn. intros H. injection H as <- _. eapply line_good; eauto.
      * intros H. injection H as <- _. auto.
Qed.
Lemma scan_dbls_ok n : forall l ds r, scan_dbls n l = Some (ds, r) -> length ds = n /\ Forall dbl_ok ds.
Proof.
  induction n as [|n IH]; intros l ds r; cbn [scan_dbls]. intros H; injection H as <- _; auto.
  destruct (scan_dbl l) as [[d q]|] eqn:E; [|discriminate]. destruct (scan_dbls n q) as [[x y]|] eqn:E2; [|discriminate]. intros H; injection H as <- _.
  destruct (IH _ _ _ E2) as [A B]. split. cbn; congruence. constructor; auto. eapply scan_dbl_ok; eauto.
Qed.
Lemma b_to_u_ok b : dbl_ok b -> dbl_ok (b_to_u b).
Proof.
  unfold dbl_ok, b_to_u. cbn [d_mag]. intros H. apply Rmult_le_pos; auto. apply Rlt_le. apply Rdiv_lt_0_compat. lra. pose proof PI_RGT_0. apply Rmult_lt_0_compat; lra.
Qed.
Lemma discus_good e v : In e elements -> length v = 4%nat -> Forall dbl_ok v -> good_atom (discus_atom (esym e) v).
Proof.
  intros I L F. destruct v as [|x [|y [|z [|b [|]]]]]; try discriminate. rewrite !Forall_cons_iff in F. destruct F as (Fx & Fy & Fz & Fb & _).
  pose proof dbl_ok_0. pose proof dbl_ok_1. pose proof (b_to_u_ok b Fb).
  split; [exists e; auto|]. unfold discus_atom, z3. cbn [firstn nth app sa_pos sa_dpos sa_u sa_du sa_occ sa_docc].
  repeat split; auto; repeat (apply Forall_cons; [assumption|]); apply Forall_nil.
Qed.
Lemma pdffit_good e v : In e elements -> length v = 20%nat -> Forall dbl_ok v -> good_atom (pdffit_atom (esym e) v).
Proof.
  intros I L F. do 20 (destruct v as [|? v]; [discriminate|]). destruct v; [|discriminate]. rewrite !Forall_cons_iff in F. 
  split; [exists e; auto|]. unfold pdffit_atom. cbn [firstn skipn nth app sa_pos sa_dpos sa_u sa_du sa_occ sa_docc].
  repeat split; auto; rewrite ?Forall_cons_iff; try tauto.
Qed.
Lemma lookup_in w e : pt_lookup elements w = Some e -> In e elements.
Proof. intros H. apply lookup_ok in H. apply H. Qed.
Lemma atoms_good f : forall d l ats, read_atoms f d l = Ok ats -> Forall good_atom ats.
Proof.
  induction f as [|f IH]; intros d l ats; cbn [read_atoms]; [discriminate|]. destruct (read_atom d l) as [[[w v] q]|] eqn:E; [|intros H; injection H as <-; auto].
  destruct (pt_lookup elements w) as [e|] eqn:P; [|discriminate]. destruct (read_atoms f d q) as [x| | |] eqn:Q; try discriminate. intros H; injection H as <-.
  constructor; [|eapply IH; eauto]. apply lookup_in in P. revert E. unfold read_atom. destruct (get_word l) as [[w' r]|]; [|discriminate].
  destruct (scan_dbls (if d then 4 else 20) r) as [[v' q']|] eqn:S; [|discriminate]. intros E; injection E as -> -> ->. apply scan_dbls_ok in S. destruct S as [L F].
  destruct d. apply discus_good; auto. apply pdffit_good; auto.
Qed.
Lemma finish_inv p q : finish p = Ok q -> q = p /\ cell_valid p /\ counts_fit p /\ counts_match p.
Proof.
  destruct (Rlt_dec double_eps (gram (cos (d_val (nth 0 (sp_win p) d_zero) * PI / 180)) (cos (d_val (nth 1 (sp_win p) d_zero) * PI / 180)) (cos (d_val (nth 2 (sp_win p) d_zero) * PI / 180)))) as [C|C].
  - assert (counts_fit p \/ ~ counts_fit p) as [F|F] by (unfold counts_fit, int_fits; lia).
    + destruct (Z.eq_dec (cells_of p * sp_ncatoms p) (Z.of_nat (length (sp_atoms p)))) as [M|M].
      * rewrite finish_ok by auto. intros H; injection H as <-. auto.
      * rewrite finish_count by auto. discriminate.
    + rewrite finish_overflow by auto. discriminate.
  - rewrite finish_cell by auto. discriminate.
Qed.
Lemma phase0_good : head_good phase0.
Proof.
  pose proof dbl_ok_0. pose proof dbl_ok_1. pose proof z3_ok as Z.
  split. { unfold one_line, newline; cbn. intros Q; repeat (destruct Q as [Q|Q]; [discriminate Q|]); exact Q. }
  split. { cbn. split; discriminate. }
  split. { split. discriminate. repeat constructor. }
  split. { repeat (apply Forall_cons; [assumption|]); apply Forall_nil. }
  split; [exact Z|]. split; [exact Z|]. split; [exact Z|]. split; [exact Z|].
  split; [reflexivity|]. split; [repeat constructor; discriminate|]. split; [split; discriminate|]. reflexivity.
Qed.
Lemma read_good t p : read_struct t = Ok p -> good_phase p /\ cell_valid p /\ sp_dev p = repeat d_zero 5.
Proof.
  rewrite read_split. destruct (read_header _ _ _ _) as [[h s]| | |] eqn:E; try discriminate. cbn [obind fst snd].
  destruct (read_atoms _ _ _) as [ats| | |] eqn:Q; try discriminate. cbn [obind]. intros H. apply finish_inv in H. destruct H as (-> & C & F & M).
  apply (header_good _ _ (le_n _)) in E; [|exact phase0_good]. apply atoms_good in Q. destruct E as (N1 & N2 & SW & D7 & A0 & WI & DA & DW & IL & IF & NF & DV).
  split; [|auto]. unfold good_phase. auto 16.
Qed.
