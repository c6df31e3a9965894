(** The columns hold the derivatives. *)
From Coq Require Import List Arith ZArith Reals Bool Lia Lra.
From Verif Require Import Base RSum MathModel ParserDeriv MathProof MetricModel MetricSpec MetricProof SphereModel PdfModel PdfSpec PdfProof PdfGeo PdfSum PdfPeak PdfPhase PdfTotal PdfFinal LayoutModel LayoutSpec LayoutProof DerivModel DerivSpec DerivRow DerivPair DerivCalc DerivPeak DerivGeo DerivSetup DerivPhase DerivOps DerivOne DerivSets.
Import ListNotations.
Local Open Scope R_scope.

Definition chg (v : rvar) (ip : nat) (y : R) (p : cphase) : cphase := if of_phase v ip then change v y p else p.

Lemma on_nth_any {A} (h : A -> A) d l n i : (i < length l)%nat -> nth i (on_nth n h l) d = if (n =? i)%nat then h (nth i l d) else nth i l d.
Proof.
  revert n i. induction l as [|a l IH]; intros n i L; simpl in L; [lia|]. destruct n, i; simpl; auto. apply IH. lia.
Qed.
Lemma ent_eta e : mkEnt (en_ph e) (en_der e) (en_igni e) (en_ignj e) = e. Proof. destruct e; reflexivity. Qed.
Lemma phases_len v y psel : length (phases_with v y psel) = length psel.
Proof. destruct v; cbn [phases_with]; auto; apply on_nth_len. Qed.
Lemma phases_nth v y psel i : (i < length psel)%nat -> nth i (phases_with v y psel) None = option_map (fun e => mkEnt (chg v i y (en_ph e)) (en_der e) (en_igni e) (en_ignj e)) (nth i psel None).
Proof.
  intros L. destruct v as [k f|k ia f|k f]; cbn [phases_with]; try rewrite on_nth_any by auto; unfold chg; cbn [of_phase].
  - destruct (k =? i)%nat; destruct (nth i psel None); cbn [option_map]; auto. rewrite ent_eta. auto.
  - destruct (k =? i)%nat; destruct (nth i psel None); cbn [option_map]; auto. rewrite ent_eta. auto.
  - destruct (nth i psel None); cbn [option_map]; auto. rewrite ent_eta. auto.
Qed.
Lemma lsum_once {B} (key : B -> nat) (F : B -> R) b : forall l, NoDup (map key l) -> In b l -> (forall c, In c l -> key c <> key b -> F c = 0) -> lsum F l = F b.
Proof.
  induction l as [|a l IH]; intros ND I H; [destruct I|]. rewrite lsum_cons. cbn [map] in ND. inversion ND; subst. destruct I as [->|I].
  - assert (E : lsum F l = 0). { rewrite (lsum_ext F (fun _ => 0 * 0)). rewrite lsum_scal. ring. intros c Ic. rewrite (H c). ring. right; auto. intros Q. apply H2. rewrite <- Q. apply in_map. auto. } lra.
  - rewrite (H a (or_introl eq_refl)). rewrite IH; auto. ring. intros; apply H; auto; right; auto. intros Q. apply H2. rewrite Q. apply in_map. auto.
Qed.

Section Final.
Variables (d : cdata) (is : nat) (psel : list (option centry)) (pts : nat -> list (Z * Z * Z)).
Hypothesis G : good_grid d.
Hypothesis O : off_origin d.
Let l := numbered 0 psel.
Hypothesis GE : forall x, In x l -> up_to_date (snd x) /\ sane_phase d (en_ph (snd x)).
Definition Wn (ip : nat) : list pairT := match nth_error psel ip with Some (Some e) => pair_W d e (pts ip) | _ => [] end.
Definition Cn (ip : nat) : pairT -> Z -> bool := match nth_error psel ip with Some (Some e) => Cof d (en_ph e) | _ => fun _ _ => false end.

Lemma in_l ip e : In (ip, e) l <-> nth_error psel ip = Some (Some e).
Proof. unfold l. rewrite numbered_in. rewrite Nat.sub_0_r. split; [intros [_ H]; auto|intros H; split; [lia|auto]]. Qed.

Lemma pdf_terms v y g : fixed_pdf (data_with is v y d) (phases_with v y psel) Wn Cn g =
  lsum (fun x => term d (fst x) (snd x) pts g (fun y => data_with is v y d) (fun y => chg v (fst x) y (en_ph (snd x))) y) l.
Proof.
  unfold fixed_pdf, phase_term. rewrite phases_len.
  set (F := fun ip e => cd_dscale (data_with is v y d) * cp_pscale (chg v ip y (en_ph e)) * fixed_phase (data_with is v y d) (mkEnt (chg v ip y (en_ph e)) (en_der e) (en_igni e) (en_ignj e)) (Wn ip) (Cn ip) g).
  rewrite (lsum_ext _ (fun ip => match nth (ip - 0) psel None with None => 0 | Some e => F ip e end)).
  - rewrite numbered_sum. fold l. apply lsum_ext. intros [ip e] I. apply in_l in I. cbn [fst snd]. unfold F, term. 
    assert (EW : Wn ip = Wof d pts (ip, e)) by (unfold Wn, Wof; rewrite I; reflexivity). assert (EC : Cn ip = Cof d (en_ph e)) by (unfold Cn; rewrite I; reflexivity). rewrite EW, EC. reflexivity.
  - intros ip I. apply in_seq in I. rewrite phases_nth by lia. rewrite Nat.sub_0_r. destruct (nth ip psel None); reflexivity.
Qed.

Lemma total_pdf g : fixed_pdf d psel Wn Cn g = total d pts l g.
Proof.
  pose proof (pdf_terms (SV (S is) FQdamp) 0 g) as H. cbn [data_with phases_with] in H. assert (E : (S is =? is)%nat = false) by (apply Nat.eqb_neq; lia). rewrite E in H. rewrite H. unfold total. apply lsum_ext. intros [ip e] _. unfold term, share, chg. cbn [of_phase fst snd].
  rewrite ?E, ent_eta. reflexivity.
Qed.

(** constant terms *)
Lemma term_const v x x0 g : In x l -> of_phase v (fst x) = false -> (forall y, data_with is v y d = d) -> dl (term d (fst x) (snd x) pts g (fun y => data_with is v y d) (fun y => chg v (fst x) y (en_ph (snd x)))) x0 0.
Proof. intros I V DW. apply (dcst _ (cd_dscale d * cp_pscale (en_ph (snd x)) * share d pts x g)). intros y. unfold term, chg, share. rewrite V, (DW y), ent_eta. destruct x; reflexivity. Qed.

Definition holds_at (v : rvar) (g : Z) : Prop := exists D,
  (forall x0, value_is is v d psel x0 -> dl (fun y => fixed_pdf (data_with is v y d) (phases_with v y psel) Wn Cn g) x0 D) /\
  leffect v (all_labs d is pts l g) (Some 0) = Some D.

Lemma one_good ip e v g : In (ip, e) l -> (idx d (calc_lo d) <= g)%Z -> of_phase v ip = true -> claimed is d psel Wn v ->
  (match v with PV _ f => phase_field_ok f | AV _ ia f => (ia < natoms (en_ph e))%nat /\ atom_field_ok f | SV _ _ => True end) ->
  exists D, (forall x0, value_is is v d psel x0 -> dl (term d ip e pts g (fun y => data_with is v y d) (fun y => change v y (en_ph e))) x0 D) /\ row_has d ip is e pts g v D.
Proof.
  intros I LO V CL OK. destruct (GE _ I) as [U S]. cbn [snd] in U, S. pose proof I as I'. apply in_l in I'.
  assert (EW : Wn ip = Wof d pts (ip, e)) by (unfold Wn, Wof; rewrite I'; reflexivity).
  destruct v as [k f|k ia f|k f]; cbn [of_phase] in V; try discriminate; apply Nat.eqb_eq in V; subst k; specialize (CL e I'); cbn [claimed] in CL; rewrite ?EW in CL.
  - assert (GA : good_at d ip is e pts g (PV ip f) (phase_value f (en_ph e))).
    { destruct f as [k|k| | | | |]; cbn [phase_value phase_field_ok] in *.
      - destruct CL. apply good_len; auto.
      - destruct CL.
      - apply good_delta2; auto.
      - apply good_delta1; auto.
      - apply good_pscale; auto.
      - apply good_spd; auto.
      - apply good_sratio; auto. }
    destruct GA as (D & A & B). exists D. split; auto. intros x0 VI. rewrite (VI e I'). exact A.
  - destruct OK as [IA OK]. assert (GA : good_at d ip is e pts g (AV ip ia f) (atom_value f (atom_no (en_ph e) ia))).
    { destruct f as [k|k|]; cbn [atom_value atom_field_ok] in *.
      - destruct CL. apply good_pos; auto.
      - apply good_u; auto.
      - apply good_occ; auto. }
    destruct GA as (D & A & B). exists D. split; auto. intros x0 VI. rewrite (VI e I'). exact A.
Qed.

Lemma nodup_l : NoDup (map fst l). Proof. apply numbered_nodup. Qed.
Lemma pdf_ext v (f : R -> R) x0 D g : dl (fun y => lsum (fun x => term d (fst x) (snd x) pts g (fun y => data_with is v y d) (fun y => chg v (fst x) y (en_ph (snd x))) y) l) x0 D ->
  dl (fun y => fixed_pdf (data_with is v y d) (phases_with v y psel) Wn Cn g) x0 D.
Proof. intros H. eapply dlim_ext; [|exact H]. intros y. symmetry. apply pdf_terms. Qed.

(** a variable of a phase *)
Lemma phase_var_ok v ip g : (idx d (calc_lo d) <= g)%Z -> of_phase v ip = true -> claimed is d psel Wn v ->
  (forall e, In (ip, e) l -> match v with PV _ f => phase_field_ok f | AV _ ia f => (ia < natoms (en_ph e))%nat /\ atom_field_ok f | SV _ _ => True end) -> holds_at v g.
Proof.
  intros LO V CL OK.
  assert (NS : forall f, v <> SV is f) by (intros f E; subst v; discriminate V).
  assert (DW : forall y, data_with is v y d = d) by (intros y; destruct v; auto; discriminate V).
  assert (SK : forall b : nat * centry, fst b <> ip -> forall x, leffect v (phase_labs d (fst b) is (snd b) (pts (fst b)) g) x = x /\ leffect v (last_labs d pts b g) x = x).
  { intros b NE x. assert (Q : of_phase v (fst b) = false). { destruct (of_phase v (fst b)) eqn:Q; auto. exfalso. apply NE. apply (of_phase_fun v); auto. } split. apply phase_labs_other; auto. apply last_labs_other; auto. }
  unfold holds_at, all_labs, point_labs. destruct (Z.leb_spec (idx d (calc_lo d)) g); [|lia].
  destruct (in_dec Nat.eq_dec ip (map fst l)) as [I|NI].
  - apply in_map_iff in I as ([ip' e] & E & I). cbn [fst] in E. subst ip'. destruct (one_good ip e v g I LO V CL (OK e I)) as (D & A & B). exists D. split.
    + intros x0 VI. apply (pdf_ext v (fun _ => 0)).
      replace D with (lsum (fun x : nat * centry => if (fst x =? ip)%nat then D else 0) l).
      2:{ rewrite (lsum_once fst _ (ip, e) l nodup_l I). cbn [fst]. rewrite Nat.eqb_refl. auto. cbn [fst]. intros c _ NE. destruct (Nat.eqb_spec (fst c) ip); auto. contradiction. }
      apply (dsum l (fun x y => term d (fst x) (snd x) pts g (fun y => data_with is v y d) (fun y => chg v (fst x) y (en_ph (snd x))) y)). intros [ip' e'] Ib. cbn [fst snd]. destruct (Nat.eqb_spec ip' ip) as [->|NE].
      * assert (EE : e' = e). { apply in_l in I, Ib. congruence. } subst e'. unfold chg. rewrite V. exact (A x0 VI).
      * apply (term_const v (ip', e') x0 g Ib); auto. cbn [fst]. destruct (of_phase v ip') eqn:Q; auto. exfalso. apply NE. apply (of_phase_fun v); auto.
    + rewrite leffect_app, (leffect_app _ (flat_map _ l)). rewrite (set_labs_other is d _ _ _ v) by auto.
      rewrite (leffect_once fst v (fun x => phase_labs d (fst x) is (snd x) (pts (fst x)) g) (ip, e) l nodup_l I) by (intros c _ NE x; apply (SK c NE x)).
      rewrite (leffect_once fst v (fun x => last_labs d pts x g) (ip, e) l nodup_l I) by (intros c _ NE x; apply (SK c NE x)). exact B.
  - exists 0. split.
    + intros x0 _. apply (pdf_ext v (fun _ => 0)). replace 0 with (lsum (fun _ : nat * centry => 0 * 0) l) by (rewrite lsum_scal; ring).
      apply (dsum l (fun x y => term d (fst x) (snd x) pts g (fun y => data_with is v y d) (fun y => chg v (fst x) y (en_ph (snd x))) y)). intros b Ib. rewrite Rmult_0_l. apply term_const; auto.
      destruct (of_phase v (fst b)) eqn:Q; auto. exfalso. apply NI. rewrite (of_phase_fun v ip (fst b)); auto. apply in_map. auto.
    + assert (NE : forall c, In c l -> fst c <> ip). { intros c Ic E. apply NI. rewrite <- E. apply in_map. auto. }
      rewrite leffect_app, (leffect_app _ (flat_map _ l)). rewrite (set_labs_other is d _ _ _ v) by auto. rewrite !leffect_skip; auto; intros c Ic x; apply (SK c (NE c Ic) x).
Qed.

(** a variable of a data set *)
Lemma set_skip v g x : (forall ip, of_phase v ip = false) -> v <> SV is FQbroad -> (idx d (calc_lo d) <= g)%Z ->
  leffect v (all_labs d is pts l g) x = leffect v (set_labs is d (last_fac d l g (Some 0)) (Some (total d pts l g)) (radius d g)) x.
Proof.
  intros V NQ LO. unfold all_labs, point_labs. destruct (Z.leb_spec (idx d (calc_lo d)) g); [|lia]. rewrite leffect_app, (leffect_app _ (flat_map _ l)).
  rewrite !leffect_skip; auto; intros c Ic y; [apply phase_labs_other|apply last_labs_other]; auto.
Qed.
(** qbroad *)
Definition fac_r (x : nat * centry) (g : Z) : R := 1 / (occ_sum (en_ph (snd x)) * grid d g) * facp d (snd x) g.
Lemma fac_r_is x g : In x l -> (idx d (calc_lo d) <= g)%Z -> fac_r x g = cd_dscale d * phase_factor d (snd x) (grid d g) / grid d g.
Proof.
  intros I LO. destruct (GE x I) as [U S]. unfold fac_r, phase_factor. pose proof (env_is d g (en_ph (snd x))) as EI. rewrite EI. unfold facp.
  pose proof (r_pos' d g G O LO). pose proof (np_nz' d (snd x) S). field. split; auto. lra.
Qed.
Lemma qb_deriv x g : In x l -> (idx d (calc_lo d) <= g)%Z ->
  dl (fun y => term d (fst x) (snd x) pts g (fun y => data_with is (SV is FQbroad) y d) (fun y => chg (SV is FQbroad) (fst x) y (en_ph (snd x))) y) (cd_qbroad d) (qb_part d (fst x) (snd x) pts g * fac_r x g).
Proof. intros I LO. destruct (GE x I) as [U S]. destruct (good_qbroad d (fst x) is (snd x) pts g G O S LO) as (A & _). exact A. Qed.
Lemma last_fac_r g : (idx d (calc_lo d) <= g)%Z -> forall l' f, (forall x, In x l' -> In x l) -> last_fac d l' g (Some f) = Some (fold_left (fun _ x => fac_r x g) l' f).
Proof.
  intros LO. induction l' as [|[ip e] l' IH]; intros f H; cbn [last_fac fold_left]; auto. destruct (GE (ip, e) (H _ (or_introl eq_refl))) as [U S].
  rewrite (fac_of_is d ip e g G O U S LO). apply IH. intros; apply H; right; auto.
Qed.
Lemma qb_sum g : (idx d (calc_lo d) <= g)%Z -> forall l' x, (forall b, In b l' -> In b l) ->
  leffect (SV is FQbroad) (flat_map (fun x => phase_labs d (fst x) is (snd x) (pts (fst x)) g) l') (Some x) = Some (x + lsum (fun b => qb_part d (fst b) (snd b) pts g) l').
Proof.
  intros LO. induction l' as [|b l' IH]; intros x H; cbn [flat_map]. rewrite lsum_nil. cbn. f_equal. ring.
  rewrite leffect_app. destruct (GE b (H _ (or_introl eq_refl))) as [U S]. destruct (good_qbroad d (fst b) is (snd b) pts g G O S LO) as (_ & B). rewrite B. rewrite IH by (intros; apply H; right; auto). rewrite lsum_cons. f_equal. ring.
Qed.
Lemma qb_row g : (idx d (calc_lo d) <= g)%Z ->
  leffect (SV is FQbroad) (all_labs d is pts l g) (Some 0) = Some (lsum (fun b => qb_part d (fst b) (snd b) pts g) l * fold_left (fun _ x => fac_r x g) l 0).
Proof.
  intros LO. unfold all_labs, point_labs. destruct (Z.leb_spec (idx d (calc_lo d)) g); [|lia]. rewrite leffect_app, (leffect_app _ (flat_map _ l)). rewrite qb_sum by auto. rewrite leffect_skip.
  rewrite set_labs_qbroad, last_fac_r by auto. cbn [nmul]. f_equal. ring. intros c Ic y. apply last_labs_other; auto.
Qed.
Lemma last_in {B} (h : B -> R) : forall l', l' <> [] -> exists z, In z l' /\ (forall a', fold_left (fun _ x => h x) l' a' = h z) /\ forall a, z = last l' a.
Proof.
  induction l' as [|b l' IH]; intros NE; [congruence|]. destruct l' as [|c l'']. exists b. split; [left; auto|]. split; auto. 
  destruct IH as (z & I & E & L). discriminate. exists z. split. right; auto. split. intros a'. cbn [fold_left]. apply (E (h b)). intros a. exact (L a).
Qed.
Lemma set_var_ok k f g : (idx d (calc_lo d) <= g)%Z -> claimed is d psel Wn (SV k f) -> holds_at (SV k f) g.
Proof.
  intros LO CL. cbn [claimed] in CL. destruct (Nat.eq_dec k is) as [->|NE].
  2:{ exists 0. assert (E : forall y, data_with is (SV k f) y d = d). { intros y. cbn [data_with]. destruct (Nat.eqb_spec k is); auto. contradiction. } split.
    - intros x0 _. apply (pdf_ext (SV k f) (fun _ => 0)). replace 0 with (lsum (fun _ : nat * centry => 0 * 0) l) by (rewrite lsum_scal; ring).
      apply (dsum l (fun x y => term d (fst x) (snd x) pts g (fun y => data_with is (SV k f) y d) (fun y => chg (SV k f) (fst x) y (en_ph (snd x))) y)). intros b Ib. rewrite Rmult_0_l. apply term_const; auto.
    - rewrite set_skip; auto. apply set_labs_other. intros f' Q. congruence. intros Q. congruence. }
  specialize (CL eq_refl). unfold holds_at. 
  assert (DW : forall y, data_with is (SV is f) y d = set_set_field f y d) by (intros y; cbn [data_with]; rewrite Nat.eqb_refl; reflexivity).
  destruct f.
  - (* scale *)
    exists (total d pts l g / cd_dscale d). split.
    + intros x0 _. apply (pdf_ext (SV is FDscale) (fun _ => 0)).
      apply dlim_ext with (f := fun y => y * (total d pts l g / cd_dscale d)).
      { intros y. unfold total, Rdiv. rewrite Rmult_comm, Rmult_assoc, Rmult_comm, Rmult_assoc. rewrite <- lsum_scal, <- lsum_scal. symmetry. 
        rewrite (lsum_ext _ (fun x => / cd_dscale d * y * (cd_dscale d * cp_pscale (en_ph (snd x)) * share d pts x g))). 2:{ intros [ip e] _. unfold term, chg. cbn [of_phase fst snd]. rewrite (DW y), ent_eta. unfold share. cbn [snd set_set_field cd_dscale].
          change (fixed_phase (mkCd _ _ _ _ _ _ _ y _)) with (fixed_phase d). field. exact CL. }
        apply lsum_ext. intros; ring. }
      eapply dl_eq. apply dmc. apply did. ring.
    + rewrite set_skip by (auto; discriminate). rewrite set_labs_dscale. apply ndiv_ok. exact CL.
  - (* qdamp *)
    exists (if Rlt_dec 0 (cd_qdamp d) then - (radius d g * radius d g) * cd_qdamp d * total d pts l g else 0). split.
    + intros x0 VI. rewrite (VI eq_refl). cbn [set_value]. apply (pdf_ext (SV is FQdamp) (fun _ => 0)).
      set (T := lsum (fun x : nat * centry => cd_dscale d * cp_pscale (en_ph (snd x)) * (shp d g (en_ph (snd x)) * rest d (fst x) (snd x) pts g)) l).
      assert (TT : total d pts l g = dfac (radius d g) (cd_qdamp d) * T).
      { unfold total, T. rewrite <- lsum_scal. apply lsum_ext. intros [ip e] _. cbn [fst snd]. pose proof (share_is d ip e pts g) as SI. rewrite SI. unfold rest. change (damp d g) with (dfac (radius d g) (cd_qdamp d)). ring. }
      apply dlim_ext with (f := fun y => dfac (radius d g) y * T).
      { intros y. unfold T. rewrite <- lsum_scal. apply lsum_ext. intros [ip e] _. unfold term, chg. cbn [of_phase fst snd]. rewrite (DW y). unfold fixed_phase. cbn [en_ph en_igni en_ignj].
        pose proof (env_is (set_set_field FQdamp y d) g (en_ph e)) as EI. rewrite EI. unfold rest, S0, base. change (damp (set_set_field FQdamp y d) g) with (dfac (radius d g) y).
        change (cd_dscale (set_set_field FQdamp y d)) with (cd_dscale d). change (shp (set_set_field FQdamp y d) g (en_ph e)) with (shp d g (en_ph e)). change (grid (set_set_field FQdamp y d) g) with (grid d g).
        change (counted_share (set_set_field FQdamp y d)) with (counted_share d). change (pair_share (set_set_field FQdamp y d)) with (pair_share d). ring. }
      eapply dl_eq. apply dmc. apply ddamp. rewrite TT. destruct (Rlt_dec 0 (cd_qdamp d)); ring.
    + rewrite set_skip by (auto; discriminate). rewrite set_labs_qdamp. destruct (Rlt_dec 0 (cd_qdamp d)); reflexivity.
  - (* qbroad *)
    exists (lsum (fun x => qb_part d (fst x) (snd x) pts g * fac_r x g) l). split.
    + intros x0 VI. rewrite (VI eq_refl). cbn [set_value]. apply (pdf_ext (SV is FQbroad) (fun _ => 0)).
      apply (dsum l (fun x y => term d (fst x) (snd x) pts g (fun y => data_with is (SV is FQbroad) y d) (fun y => chg (SV is FQbroad) (fst x) y (en_ph (snd x))) y)).
      intros b Ib. apply qb_deriv; auto.
    + rewrite qb_row by auto. f_equal. assert (L0 : l = [] \/ l <> []) by (destruct l; [left; auto|right; discriminate]). destruct L0 as [L0|L0].
      * rewrite L0. cbn [fold_left]. rewrite !lsum_nil. ring.
      * destruct (last_in (fun x => fac_r x g) l L0) as (z & Iz & Ez & _).
        rewrite Ez. rewrite Rmult_comm, <- lsum_scal. apply lsum_ext. intros x Ix. rewrite Rmult_comm. f_equal.
        rewrite !fac_r_is by auto. rewrite (CL (snd x) (snd z) (grid d g)). reflexivity.
        rewrite <- (numbered_sel psel 0). apply in_map. exact Ix. rewrite <- (numbered_sel psel 0). apply in_map. exact Iz. apply r_pos'; auto.
Qed.
End Final.

(** lattice points for all phases at once *)
Lemma choose_pts (P : nat * centry -> nat -> list (Z * Z * Z) -> Prop) : (forall x f f' L, (f <= f')%nat -> P x f L -> P x f' L) ->
  forall l, NoDup (map fst l) -> (forall x, In x l -> exists f0 L, P x f0 L) -> exists f0 pts, forall x, In x l -> P x f0 (pts (fst x)).
Proof.
  intros M. induction l as [|a l IH]; intros ND H. exists 0%nat, (fun _ => []). intros x [].
  cbn [map] in ND. inversion ND; subst. destruct (IH H3) as (f1 & pts & X). intros; apply H; right; auto. destruct (H a (or_introl eq_refl)) as (f2 & L & Y).
  exists (Nat.max f1 f2), (fun k => if (k =? fst a)%nat then L else pts k). intros x [<-|I]. rewrite Nat.eqb_refl. eapply M; [|exact Y]. lia.
  destruct (Nat.eqb_spec (fst x) (fst a)) as [E|]. exfalso. apply H2. rewrite <- E. apply in_map. auto. eapply M; [|apply X; auto]. lia.
Qed.

(** the lattice points of all phases *)
Definition found (d : cdata) (psel : list (option centry)) (f0 : nat) (pts : nat -> list (Z * Z * Z)) : Prop :=
  forall x, In x (numbered 0 psel) -> let p := en_ph (snd x) in
    (forall f, (f0 <= f)%nat -> points_in_sphere f (sph_lo d (snd x)) (sph_hi d (snd x)) (lp_make (cp_a0 p 0%nat * IZR (cp_icc p 0)) (cp_a0 p 1%nat * IZR (cp_icc p 1)) (cp_a0 p 2%nat * IZR (cp_icc p 2)) (cp_win p 0%nat) (cp_win p 1%nat) (cp_win p 2%nat)) = Ok (pts (fst x))) /\
    pair_list d (snd x) (pair_W d (snd x) (pts (fst x))).
Lemma found_some d psel : good_grid d -> (forall e, In e (selected_entries psel) -> up_to_date e /\ sane_phase d (en_ph e)) -> exists f0 pts, found d psel f0 pts.
Proof.
  intros G AR. set (l := numbered 0 psel).
  assert (GE : forall x, In x l -> up_to_date (snd x) /\ sane_phase d (en_ph (snd x))).
  { intros x I. apply AR. rewrite <- (numbered_sel psel 0). apply in_map. exact I. }
  set (P := fun (x : nat * centry) f0 L => let p := en_ph (snd x) in
    (forall f, (f0 <= f)%nat -> points_in_sphere f (sph_lo d (snd x)) (sph_hi d (snd x)) (lp_make (cp_a0 p 0%nat * IZR (cp_icc p 0)) (cp_a0 p 1%nat * IZR (cp_icc p 1)) (cp_a0 p 2%nat * IZR (cp_icc p 2)) (cp_win p 0%nat) (cp_win p 1%nat) (cp_win p 2%nat)) = Ok L) /\
    pair_list d (snd x) (pair_W d (snd x) L)).
  destruct (choose_pts P) with (l := l) as (f0 & pts & PT).
  { intros x f f' L LE [A B]. split; auto. intros f'' H. apply A. lia. } { apply numbered_nodup. }
  { intros x I. destruct (GE x I) as [U S]. pose proof S as (PC & TN & ICC & _). destruct (sphere_found (en_ph (snd x)) PC ICC (sph_lo d (snd x)) (sph_hi d (snd x))) as (f0 & pt & F & ND & C & SB).
    exists f0, pt. split. exact F. apply W_pairs; auto. }
  exists f0, pts. exact PT.
Qed.

(** the calculation, with the lattice points found *)
Lemma columns_with d psel find natoms nset npar ly vref is f0 pts : found d psel f0 pts ->
  good_grid d -> off_origin d -> good_filter d -> (forall e, In e (selected_entries psel) -> up_to_date e /\ sane_phase d (en_ph e)) ->
  counts_fit psel natoms -> (is < nset)%nat -> fit_setup find natoms nset npar = Ok ly -> columns_fit find natoms nset vref ->
  right_limits d psel (Wn d psel pts) (Cn d psel) /\
  forall fuel, (f0 <= fuel)%nat ->
  (forall x, In x (numbered 0 psel) -> good_entry natoms d pts fuel x) /\
  (exists t, determine fuel d psel = Ok (idx d (cd_rfmin d), idx d (cd_rfmax d), t) /\ holds_pdf d (idx d (calc_lo d)) (idx d (calc_hi d)) (fixed_pdf d psel (Wn d psel pts) (Cn d psel)) t) /\
  exists A, determine_diff fuel d psel ly is vref = Ok A /\
  (cd_qmax d <= 0 -> forall v c g, exists_var natoms nset v -> find v = Some c -> (0 <= g <= idx d (calc_hi d))%Z ->
    el (column A c) g = leffect v (all_labs d is pts (numbered 0 psel) g) (Some 0)) /\
  forall v c D, exists_var natoms nset v -> find v = Some c ->
    (forall g, (idx d (calc_lo d) <= g <= idx d (calc_hi d))%Z -> leffect v (all_labs d is pts (numbered 0 psel) g) (Some 0) = Some (D g)) ->
    holds_pdf d (idx d (calc_lo d)) (idx d (calc_hi d)) D (column A c).
Proof.
  intros PT0 G O GF AR CF IS FS CO. set (l := numbered 0 psel).
  assert (LR : layout_right find natoms nset ly).
  { destruct (layout_ok find natoms nset npar) as [A B]. destruct (Nat.eq_dec npar (phase_size natoms + 3 * nset)) as [E|E]. destruct (A E) as (s & S1 & S2). congruence. rewrite B in FS by auto. discriminate. }
  assert (IL : forall ip e, In (ip, e) l <-> nth_error psel ip = Some (Some e)) by (intros; apply in_l).
  assert (GE : forall x, In x l -> up_to_date (snd x) /\ sane_phase d (en_ph (snd x))).
  { intros x I. apply AR. rewrite <- (numbered_sel psel 0). apply in_map. exact I. }
  rename PT0 into PT. split.
  { intros ip e E. pose proof E as I. apply IL in I. split.
    - unfold Wn. rewrite E. apply (PT (ip, e) I).
    - intros i j t g. unfold Cn. rewrite E. unfold Cof. destruct (contributes_dec _ _ _ _ _ _); split; auto; try discriminate; try contradiction. }
  intros fuel Hf.
  assert (GD : forall x, In x (numbered 0 psel) -> good_entry natoms d pts fuel x).
  { intros [ip e] I. destruct (GE _ I) as [U S]. unfold good_entry. repeat split; auto; try apply S. apply CF. apply IL. exact I. destruct (PT _ I) as [F _]. apply F. exact Hf. }
  split. exact GD. split.
  - destruct (determine_at natoms nset vref d is G O GF IS pts fuel psel GD) as (t & E & H). exists t. split; auto.
    assert (TE : forall g, total d pts (numbered 0 psel) g = fixed_pdf d psel (Wn d psel pts) (Cn d psel) g) by (intros g; symmetry; apply (total_pdf d is psel pts)).
    destruct H as (H1 & H2 & H3 & H4). split; auto. split; auto. split.
    + intros Q g Hg. rewrite (H3 Q g Hg). f_equal. apply TE.
    + intros Q. destruct (H4 Q) as (out & FI & X). exists out. split; auto. rewrite <- (map_ext _ _ TE). exact FI.
  - destruct (determine_diff_ok find natoms nset ly vref LR CO d is G O GF IS pts fuel psel GD) as (A & E & RAW & H). exists A. split; auto. split; auto.
    intros v c D V F Z1. apply (H v c D); auto. intros g Hg. apply all_labs_low; auto.
Qed.

Lemma columns_at d psel find natoms nset npar ly vref is :
  good_grid d -> off_origin d -> good_filter d -> (forall e, In e (selected_entries psel) -> up_to_date e /\ sane_phase d (en_ph e)) ->
  counts_fit psel natoms -> (is < nset)%nat -> fit_setup find natoms nset npar = Ok ly -> columns_fit find natoms nset vref ->
  exists f0 pts, right_limits d psel (Wn d psel pts) (Cn d psel) /\
  forall fuel, (f0 <= fuel)%nat ->
  (forall x, In x (numbered 0 psel) -> good_entry natoms d pts fuel x) /\
  (exists t, determine fuel d psel = Ok (idx d (cd_rfmin d), idx d (cd_rfmax d), t) /\ holds_pdf d (idx d (calc_lo d)) (idx d (calc_hi d)) (fixed_pdf d psel (Wn d psel pts) (Cn d psel)) t) /\
  exists A, determine_diff fuel d psel ly is vref = Ok A /\
  (cd_qmax d <= 0 -> forall v c g, exists_var natoms nset v -> find v = Some c -> (0 <= g <= idx d (calc_hi d))%Z ->
    el (column A c) g = leffect v (all_labs d is pts (numbered 0 psel) g) (Some 0)) /\
  forall v c D, exists_var natoms nset v -> find v = Some c ->
    (forall g, (idx d (calc_lo d) <= g <= idx d (calc_hi d))%Z -> leffect v (all_labs d is pts (numbered 0 psel) g) (Some 0) = Some (D g)) ->
    holds_pdf d (idx d (calc_lo d)) (idx d (calc_hi d)) D (column A c).
Proof.
  intros G O GF AR CF IS FS CO. destruct (found_some d psel G AR) as (f0 & pts & PT). exists f0, pts. apply (columns_with d psel find natoms nset npar ly vref is f0 pts); auto.
Qed.

Lemma claimed_holds d psel natoms nset is pts v g : good_grid d -> off_origin d -> (forall e, In e (selected_entries psel) -> up_to_date e /\ sane_phase d (en_ph e)) ->
  counts_fit psel natoms -> exists_var natoms nset v -> claimed is d psel (Wn d psel pts) v -> (idx d (calc_lo d) <= g)%Z -> holds_at d is psel pts v g.
Proof.
  intros G O AR CF V CL LO.
  assert (IL : forall ip e, In (ip, e) (numbered 0 psel) <-> nth_error psel ip = Some (Some e)) by (intros; apply in_l).
  assert (GE : forall x, In x (numbered 0 psel) -> up_to_date (snd x) /\ sane_phase d (en_ph (snd x))).
  { intros x I. apply AR. rewrite <- (numbered_sel psel 0). apply in_map. exact I. }
  destruct v as [ip f|ip ia f|k f].
  - apply (phase_var_ok d is psel pts G O GE (PV ip f) ip g LO); auto. cbn [of_phase]. apply Nat.eqb_refl. intros e _. apply V.
  - apply (phase_var_ok d is psel pts G O GE (AV ip ia f) ip g LO); auto. cbn [of_phase]. apply Nat.eqb_refl. intros e I. destruct V as (V1 & V2 & V3). split; auto.
    apply IL in I. apply CF in I. apply nth_error_nth with (d := 0%nat) in I. rewrite I in V2. exact V2.
  - apply set_var_ok; auto.
Qed.

Theorem derivatives_hold d psel find natoms nset npar ly vref is :
  good_grid d -> off_origin d -> good_filter d -> (forall e, In e (selected_entries psel) -> up_to_date e /\ sane_phase d (en_ph e)) ->
  counts_fit psel natoms -> (is < nset)%nat -> fit_setup find natoms nset npar = Ok ly -> columns_fit find natoms nset vref ->
  exists lo hi f1 f2 f0 W C, point_ranges d lo hi f1 f2 /\ right_limits d psel W C /\
  forall fuel, (f0 <= fuel)%nat ->
  (exists t, determine fuel d psel = Ok (f1, f2, t) /\ holds_pdf d lo hi (fixed_pdf d psel W C) t) /\
  exists A, determine_diff fuel d psel ly is vref = Ok A /\
  forall v c, exists_var natoms nset v -> find v = Some c -> claimed is d psel W v ->
  exists D, holds_pdf d lo hi D (column A c) /\
  forall g x0, (lo <= g <= hi)%Z -> value_is is v d psel x0 ->
  derivable_pt_lim (fun x => fixed_pdf (data_with is v x d) (phases_with v x psel) W C g) x0 (D g).
Proof.
  intros G O GF AR CF IS FS CO. destruct (columns_at d psel find natoms nset npar ly vref is G O GF AR CF IS FS CO) as (f0 & pts & RL & X).
  exists (idx d (calc_lo d)), (idx d (calc_hi d)), (idx d (cd_rfmin d)), (idx d (cd_rfmax d)), f0, (Wn d psel pts), (Cn d psel).
  split. apply ranges_ok; auto. split; auto. intros fuel Hf. destruct (X fuel Hf) as (_ & T & A & E & _ & H). split; auto. exists A. split; auto.
  intros v c V F CL.
  assert (HA : forall g, (idx d (calc_lo d) <= g)%Z -> holds_at d is psel pts v g) by (intros g LO; apply (claimed_holds d psel natoms nset); auto).
  exists (fun g => match leffect v (all_labs d is pts (numbered 0 psel) g) (Some 0) with Some x => x | None => 0 end). split.
  - apply (H v c); auto. intros g Hg. destruct (HA g) as (D & _ & B). lia. rewrite B. reflexivity.
  - intros g x0 Hg VI. destruct (HA g) as (D & Y & B). lia. rewrite B. apply Y. exact VI.
Qed.

(** *** qbroad with any phases *)
Lemma numbered_last psel : forall k a x, In x (numbered k psel) -> (fst x <= fst (last (numbered k psel) a))%nat.
Proof.
  induction psel as [|[e|] r IH]; intros k a x I; cbn [numbered] in *. destruct I. 2: apply IH; auto.
  destruct (numbered (S k) r) as [|b q] eqn:E. destruct I as [<-|[]]. apply le_n.
  change (last ((k, e) :: b :: q) a) with (last (b :: q) a). rewrite <- E. rewrite <- E in I. destruct I as [<-|I]; [|apply IH; auto].
  cbn [fst]. apply Nat.le_trans with (fst b). assert (B : In b (numbered (S k) r)) by (rewrite E; left; auto). destruct b as [ib eb]. apply numbered_in in B. cbn [fst]. lia.
  apply IH. rewrite E. left; auto.
Qed.
Theorem qbroad_column d psel find natoms nset npar ly vref is c :
  good_grid d -> off_origin d -> good_filter d -> (forall e, In e (selected_entries psel) -> up_to_date e /\ sane_phase d (en_ph e)) ->
  counts_fit psel natoms -> (is < nset)%nat -> fit_setup find natoms nset npar = Ok ly -> columns_fit find natoms nset vref ->
  find (SV is FQbroad) = Some c ->
  exists lo hi f1 f2 f0 W C, point_ranges d lo hi f1 f2 /\ right_limits d psel W C /\
  forall fuel, (f0 <= fuel)%nat ->
  exists A, determine_diff fuel d psel ly is vref = Ok A /\
  forall e1, last_selected psel e1 ->
  exists H, holds_pdf d lo hi (fun g => cd_dscale d / grid d g * phase_factor d e1 (grid d g) * lsum (fun ip => H ip g) (seq 0 (length psel))) (column A c) /\
  (forall ip g, nth ip psel None = None -> H ip g = 0) /\
  forall ip e g, nth_error psel ip = Some (Some e) -> (lo <= g <= hi)%Z ->
  derivable_pt_lim (fun x => phase_term (set_set_field FQbroad x d) psel W C g ip) (cd_qbroad d) (cd_dscale d / grid d g * phase_factor d e (grid d g) * H ip g).
Proof.
  intros G O GF AR CF IS FS CO F. destruct (columns_at d psel find natoms nset npar ly vref is G O GF AR CF IS FS CO) as (f0 & pts & RL & X).
  assert (GE : forall x, In x (numbered 0 psel) -> up_to_date (snd x) /\ sane_phase d (en_ph (snd x))).
  { intros x I. apply AR. rewrite <- (numbered_sel psel 0). apply in_map. exact I. }
  exists (idx d (calc_lo d)), (idx d (calc_hi d)), (idx d (cd_rfmin d)), (idx d (cd_rfmax d)), f0, (Wn d psel pts), (Cn d psel).
  split. apply ranges_ok; auto. split; auto. intros fuel Hf. destruct (X fuel Hf) as (_ & _ & A & E & _ & H). exists A. split; auto.
  intros e1 (il & EI & LA). exists (fun ip g => match nth ip psel None with None => 0 | Some e => qb_part d ip e pts g end). split; [|split].
  - apply (H (SV is FQbroad)); auto. intros g Hg. rewrite (qb_row d is psel pts G O GE) by lia. f_equal.
    assert (I : In (il, e1) (numbered 0 psel)) by (apply in_l; auto).
    destruct (last_in (fun x => fac_r d x g) (numbered 0 psel)) as (z & Iz & Ez & Lz). { intros Q. rewrite Q in I. destruct I. }
    rewrite Ez. assert (ZE : z = (il, e1)).
    { destruct z as [iz ez]. assert (iz <= il)%nat. { apply (LA iz ez). apply in_l in Iz. exact Iz. }
      assert (il <= iz)%nat. { pose proof (numbered_last psel 0 (il, e1) (il, e1) I) as NL. rewrite <- (Lz (il, e1)) in NL. exact NL. }
      assert (iz = il) by lia. subst iz. apply in_l in Iz. congruence. }
    subst z. rewrite (fac_r_is d psel G O GE (il, e1) g I) by lia. cbn [snd]. rewrite Rmult_comm. pose proof (r_pos' d g G O ltac:(lia)). f_equal. field. lra.
    pose proof (numbered_sum psel 0 (fun ip e => qb_part d ip e pts g)) as NS. rewrite (lsum_ext _ (fun ip => match nth (ip - 0) psel None with None => 0 | Some e => qb_part d ip e pts g end)).
    symmetry. exact NS. intros ip _. rewrite Nat.sub_0_r. reflexivity.
  - intros ip g Q. rewrite Q. reflexivity.
  - intros ip e g Q Hg. assert (I : In (ip, e) (numbered 0 psel)) by (apply in_l; auto). pose proof (nth_error_nth psel ip None Q) as NQ. rewrite NQ.
    pose proof (qb_deriv d is psel pts G O GE (ip, e) g I ltac:(lia)) as B. rewrite (fac_r_is d psel G O GE (ip, e) g I) in B by lia. cbn [fst snd] in B.
    eapply dl_eq. eapply dlim_ext; [|exact B]. 
    + intros y. unfold phase_term, term, chg. cbn [of_phase]. rewrite NQ, ent_eta. cbn [data_with]. rewrite Nat.eqb_refl. unfold Wn, Cn, Wof. rewrite Q. reflexivity.
    + pose proof (r_pos' d g G O ltac:(lia)). cbv beta. field. lra.
Qed.
