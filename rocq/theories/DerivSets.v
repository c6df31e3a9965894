(** Variables of the data set, and all phases together. *)
From Coq Require Import List Arith ZArith Reals Bool Lia Lra.
From Verif Require Import Base RSum MathModel ParserDeriv MathProof MetricModel MetricSpec MetricProof SphereModel PdfModel PdfSpec PdfProof PdfGeo PdfSum PdfPeak PdfPhase PdfTotal LayoutModel LayoutSpec LayoutProof DerivModel DerivSpec DerivRow DerivPair DerivCalc DerivPeak DerivGeo DerivSetup DerivPhase DerivOps DerivOne.
Import ListNotations.
Local Open Scope R_scope.

(** ** damping *)
Definition dfac (r q : R) : R := if Rlt_dec 0 q then exp (- m_sqr (r * q) / 2) else 1.
Lemma ddamp r q : dl (dfac r) q (if Rlt_dec 0 q then - (r * r) * q * dfac r q else 0).
Proof.
  destruct (Rlt_dec 0 q) as [P|NP].
  - apply dl_local with (eps0 := q) (f := fun y => exp (y * y * (- (r * r) / 2))); auto.
    + intros y Hy. apply Rabs_def2 in Hy. unfold dfac. destruct (Rlt_dec 0 y); [|lra]. f_equal. unfold m_sqr. field.
    + eapply dl_eq. apply dex. apply dmc. apply dm; apply did. unfold dfac. destruct (Rlt_dec 0 q); [|lra]. replace (- m_sqr (r * q) / 2) with (q * q * (- (r * r) / 2)) by (unfold m_sqr; field). field.
  - destruct (Req_dec q 0) as [->|NZ].
    + intros eps HE. set (D := eps / (1 + r * r)). assert (RR : 0 <= r * r) by nra. assert (DP : 0 < D) by (apply Rdiv_lt_0_compat; lra).
      exists (mkposreal D DP). intros h NH AH. cbn [pos] in AH. rewrite Rplus_0_l, Rminus_0_r. unfold dfac. destruct (Rlt_dec 0 0); [lra|]. destruct (Rlt_dec 0 h) as [H|H].
      2:{ unfold Rdiv. rewrite Rminus_eq_0, Rmult_0_l, Rabs_R0. auto. }
      set (u := m_sqr (r * h) / 2). replace (- m_sqr (r * h) / 2) with (- u) by (unfold u; field).
      assert (U : 0 <= u) by (unfold u, m_sqr; nra).
      assert (E1 : exp (- u) <= 1). { rewrite <- exp_0. destruct (Req_dec u 0) as [->|]. rewrite Ropp_0; lra. left. apply exp_increasing. lra. }
      assert (E2 : 1 - u <= exp (- u)). { destruct (Req_dec u 0) as [Z|]. rewrite Z, Ropp_0, exp_0; lra. left. pose proof (exp_ineq1 (- u)). lra. }
      rewrite Rabs_right in AH by lra.
      assert (B : Rabs ((exp (- u) - 1) / h) <= u / h). { unfold Rdiv. rewrite Rabs_mult, (Rabs_right (/ h)) by (apply Rle_ge, Rlt_le, Rinv_0_lt_compat; auto). apply Rmult_le_compat_r. apply Rlt_le, Rinv_0_lt_compat; auto. rewrite Rabs_left1; lra. }
      eapply Rle_lt_trans. exact B. replace (u / h) with (r * r * h / 2) by (unfold u, m_sqr; field; lra).
      assert (h * (1 + r * r) < eps). { unfold D in AH. apply (Rmult_lt_compat_r (1 + r * r)) in AH; [|lra]. replace (eps / (1 + r * r) * (1 + r * r)) with eps in AH by (field; lra). exact AH. }
      nra.
    + apply dl_local with (eps0 := - q) (f := fun _ => 1). lra. intros y Hy. apply Rabs_def2 in Hy. unfold dfac. destruct (Rlt_dec 0 y); [lra|reflexivity]. apply dlim_const.
Qed.

(** ** the labels *)
Definition of_phase (v : rvar) (ip : nat) : bool := match v with PV k _ => (k =? ip)%nat | AV k _ _ => (k =? ip)%nat | SV _ _ => false end.
Lemma pair_vars_in ip i j is w : In w (pair_vars ip i j is) -> of_phase w ip = true \/ w = SV is FQbroad.
Proof. unfold pair_vars. cbn [app In]. intros H. repeat (destruct H as [<-|H]; [first [right; reflexivity|left; cbn [of_phase]; apply Nat.eqb_refl]|]). destruct H. Qed.
Lemma pt_labs_in d ip is e i j t g q : In q (pt_labs d ip is e i j t g) -> of_phase (fst q) ip = true \/ fst q = SV is FQbroad.
Proof. unfold pt_labs, pair_labs. destruct q as [w f]. intros H. apply in_combine_l in H. cbn [fst]. apply pair_vars_in in H. auto. Qed.
Lemma phase_labs_in d ip is e pts g q : In q (phase_labs d ip is e pts g) -> of_phase (fst q) ip = true \/ fst q = SV is FQbroad.
Proof.
  unfold phase_labs. intros H. apply in_flat_map in H as ([i j] & _ & H). cbn [fst snd] in H. destruct (counted _ _ i j); [|destruct H].
  apply in_flat_map in H as (t & _ & H). unfold pt_edits in H. destruct (in_reach_dec _ _); [|destruct H]. destruct (contributes_dec _ _ _ _ _ _); [|destruct H]. apply pt_labs_in in H. auto.
Qed.
Lemma last_labs_in d pts x g q : In q (last_labs d pts x g) -> of_phase (fst q) (fst x) = true.
Proof.
  destruct x as [ip e]. unfold last_labs. intros H. apply in_app_iff in H as [H|H].
  - apply in_flat_map in H as (i & _ & H). unfold atom_setup in H. destruct q as [w f]. apply in_combine_l in H. apply in_map_iff in H as (k & <- & _). cbn [fst of_phase]. apply Nat.eqb_refl.
  - unfold own_setup in H. destruct q as [w f]. apply in_combine_l in H. apply in_map_iff in H as (k & <- & _). cbn [fst of_phase]. apply Nat.eqb_refl.
Qed.
Lemma set_labs_in is d fac t r q : In q (set_labs is d fac t r) -> exists f, fst q = SV is f.
Proof. unfold set_labs. destruct q as [w f]. intros H. apply in_combine_l in H. apply in_map_iff in H as (k & <- & _). exists k. auto. Qed.
Lemma of_phase_fun v a b : of_phase v a = true -> of_phase v b = true -> a = b.
Proof. destruct v; cbn [of_phase]; intros H H'; try discriminate; apply Nat.eqb_eq in H, H'; congruence. Qed.

(** labels that are not v leave it alone *)
Lemma phase_labs_other d is e pts g v ip x : of_phase v ip = false -> v <> SV is FQbroad -> leffect v (phase_labs d ip is e pts g) x = x.
Proof. intros V S. apply leffect_none. intros q I E. apply phase_labs_in in I as [I|I]; congruence. Qed.
Lemma last_labs_other d pts x g v y : of_phase v (fst x) = false -> leffect v (last_labs d pts x g) y = y.
Proof. intros V. apply leffect_none. intros q I E. apply last_labs_in in I. congruence. Qed.
Lemma set_labs_other is d fac t r v y : (forall f, v <> SV is f) -> leffect v (set_labs is d fac t r) y = y.
Proof. intros V. apply leffect_none. intros q I E. apply set_labs_in in I as [f I]. apply (V f). congruence. Qed.

(** below the calculated range nothing is added *)
Lemma reach_lo d p ai aj t g : good_grid d -> contributes d p ai aj t g -> (idx d (calc_lo d) <= g)%Z.
Proof.
  intros G (_ & _ & R). unfold reaches in R. cbv zeta in R. destruct R as (L & _). pose proof (calc_order d G) as ((C1 & _) & _). apply (idx_le d G). exact C1.
  eapply Rle_lt_trans; [|exact L]. apply Rmax_l.
Qed.
Lemma phase_labs_low d ip is e pts g v x : good_grid d -> (g < idx d (calc_lo d))%Z -> leffect v (phase_labs d ip is e pts g) (Some x) = Some x.
Proof.
  intros G L. rewrite (half_effect d ip is e pts v g (fun _ => 0)). rewrite half_zero. f_equal. ring.
  intros i j t _ _ CT. exfalso. apply reach_lo in CT; auto. lia.
Qed.
Lemma low_flat d is pts g v : good_grid d -> (g < idx d (calc_lo d))%Z -> forall l x, leffect v (flat_map (fun x : nat * centry => phase_labs d (fst x) is (snd x) (pts (fst x)) g) l) (Some x) = Some x.
Proof. intros G L. induction l as [|a l IH]; intros x; auto. cbn [flat_map]. rewrite leffect_app, phase_labs_low by auto. apply IH. Qed.
Lemma all_labs_low d is pts l g v : good_grid d -> (0 <= g < idx d (calc_lo d))%Z -> leffect v (all_labs d is pts l g) (Some 0) = Some 0.
Proof.
  intros G L. unfold all_labs. rewrite leffect_app, low_flat by (auto; lia). destruct (Z.leb_spec (idx d (calc_lo d)) g); [lia|]. reflexivity.
Qed.

(** the operations for the data set *)
Lemma pick_set_vars is f fs x : length fs = 3%nat -> leffect (SV is f) (combine (map (SV is) set_fields) fs) x = nth (set_no f) fs nop x.
Proof.
  intros L. do 3 (destruct fs as [|? fs]; [discriminate|]). destruct fs; [|discriminate]. unfold leffect, set_fields. cbn [map].
  destruct f; cbn [combine fold_left fst snd veqb sf_eqb andb set_no]; rewrite Nat.eqb_refl; cbn [andb nth]; reflexivity.
Qed.
Lemma set_labs_dscale is d fac t r x : leffect (SV is FDscale) (set_labs is d fac t r) x = ndiv t (Some (cd_dscale d)).
Proof. unfold set_labs. rewrite pick_set_vars by reflexivity. reflexivity. Qed.
Lemma set_labs_qdamp is d fac t r x : leffect (SV is FQdamp) (set_labs is d fac t r) x = if Rlt_dec 0 (cd_qdamp d) then nmul (Some (- (r * r) * cd_qdamp d)) t else Some 0.
Proof. unfold set_labs. rewrite pick_set_vars by reflexivity. reflexivity. Qed.
Lemma set_labs_qbroad is d fac t r x : leffect (SV is FQbroad) (set_labs is d fac t r) x = nmul x fac.
Proof. unfold set_labs. rewrite pick_set_vars by reflexivity. reflexivity. Qed.

Lemma fac_of_is d ip e g : good_grid d -> off_origin d -> up_to_date e -> sane_phase d (en_ph e) -> (idx d (calc_lo d) <= g)%Z ->
  fac_of d (ip, e) g = Some (1 / (occ_sum (en_ph e) * grid d g) * facp d e g).
Proof.
  intros G O U S L. unfold fac_of, phase_setup. cbv zeta. cbn [fst snd]. rewrite (np_code e U), radius_is, (facs_is d e g G O S L). reflexivity.
Qed.
