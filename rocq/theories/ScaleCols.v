(** Shape of fit_a, and its columns for scale factors. *)
From Coq Require Import List Arith ZArith Reals Bool Lia Lra FunctionalExtensionality.
From Verif Require Import Base RSum Util ParamProof MathModel ParserDeriv MathProof MetricModel MetricSpec MetricProof SphereModel PdfModel PdfSpec PdfProof PdfGeo PdfSum PdfPeak PdfPhase PdfFft PdfTotal PdfFinal LayoutModel LayoutSpec LayoutProof DerivModel DerivSpec DerivRow DerivPair DerivCalc DerivPeak DerivGeo DerivSetup DerivPhase DerivOps DerivOne DerivSets DerivFinal.
Import ListNotations.
Local Open Scope R_scope.

Lemma ofold_inv {S X} (P : S -> Prop) (f : S -> X -> outcome S) : forall l s s',
  (forall s x s', In x l -> P s -> f s x = Ok s' -> P s') -> P s -> ofold f l s = Ok s' -> P s'.
Proof.
  induction l as [|x l IH]; intros s s' H A E; cbn [ofold] in E. congruence. destruct (f s x) as [s1| | |] eqn:F; try discriminate. cbn [obind] in E.
  apply (IH s1 s'); auto. intros; eapply H; eauto; right; auto. apply (H s x); auto. left; auto.
Qed.

Section Shape.
Variables (vref : list bool) (ly : layout).
Let m := length vref.
Variable n : nat.
(** columns that no variable uses *)
Definition unused (c : nat) : Prop := (c < m)%nat /\ nth_error vref c <> Some true /\ ~ In (Some c) (ly_refvar ly).
Definition good_row (row : list num) : Prop := length row = m /\ forall c, unused c -> nth_error row c = Some (Some 0).
Definition good_rows (A : list (list num)) : Prop := length A = n /\ forall row, In row A -> good_row row.

Lemma wr_inv {A} (l : list A) i x l' : wr l i x = Ok l' -> (i < length l)%nat /\ l' = upd i x l.
Proof. unfold wr. destruct (Nat.ltb_spec i (length l)); [|discriminate]. intros E; inversion E; auto. Qed.
Lemma write_good row c x row' : good_row row -> ~ unused c -> wr row c x = Ok row' -> good_row row'.
Proof.
  intros [L G] U E. apply wr_inv in E as [B ->]. split. rewrite ParamProof.upd_length; auto. intros c' U'. rewrite ParamProof.upd_other by (intros ->; contradiction). auto.
Qed.
Lemma rd_inv {A} (l : list A) i x : rd l i = Ok x -> nth_error l i = Some x.
Proof. unfold rd. destruct (nth_error l i); intros E; inversion E; auto. Qed.
Lemma edit_good row s f row' : good_row row -> edit (ly_refvar ly) row s f = Ok row' -> good_row row'.
Proof.
  intros G E. unfold edit in E. apply obind_ok in E as (c & R & E). apply rd_inv in R. destruct c as [c|]; [|inversion E; subst; auto].
  apply obind_ok in E as (x & _ & E). eapply write_good; eauto. intros (_ & _ & N). apply N. eapply nth_error_In; eauto.
Qed.
Lemma edits_good l row row' : good_row row -> run_edits (ly_refvar ly) row l = Ok row' -> good_row row'.
Proof. intros G E. unfold run_edits in E. eapply (ofold_inv good_row); [|exact G|exact E]. intros s x s' _. apply edit_good. Qed.
Lemma rdz_good A g row : good_rows A -> rdz A g = Ok row -> good_row row.
Proof. unfold rdz. intros [_ G] E. destruct (g <? 0)%Z; [discriminate|]. apply G. apply rd_inv in E. eapply nth_error_In; eauto. Qed.
Lemma wrz_good A g row A' : good_rows A -> good_row row -> wrz A g row = Ok A' -> good_rows A'.
Proof.
  unfold wrz. intros [L G] R E. destruct (g <? 0)%Z; [discriminate|]. apply wr_inv in E as [B ->]. split. rewrite ParamProof.upd_length; auto. intros r I. apply In_nth_error in I as (k & K).
  destruct (Nat.eq_dec k (Z.to_nat g)) as [->|NE]. rewrite ParamProof.upd_same in K by auto. inversion K; subst; auto. rewrite ParamProof.upd_other in K by auto. apply G. eapply nth_error_In; eauto.
Qed.
Lemma peak_good d a b p ai aj oi oj op os sg dv A k A' : good_rows A -> deriv_peak (ly_refvar ly) d a b p ai aj oi oj op os sg dv A k = Ok A' -> good_rows A'.
Proof.
  intros G E. unfold deriv_peak in E. apply obind_ok in E as (ib & _ & E). apply obind_ok in E as (ie & _ & E).
  eapply (ofold_inv good_rows); [|exact G|exact E]. clear. intros A ig A' _ G E. cbv zeta in E. apply obind_ok in E as (row & R & E). apply obind_ok in E as (row' & X & E).
  eapply wrz_good; eauto. eapply edits_good; eauto. eapply rdz_good; eauto.
Qed.
Lemma phase_good fuel d a b na nb e op oa os A A' : good_rows A -> phase_derivs fuel (ly_refvar ly) d a b na nb e op oa os A = Ok A' -> good_rows A'.
Proof.
  intros G E. unfold phase_derivs in E. destruct (dist_limits a b) as [r1 r2]. apply obind_ok in E as (pts & _ & E).
  eapply (ofold_inv good_rows); [|exact G|exact E]. clear. intros A [i j] A' _ G E. destruct (skip_pair _ _ i j). inversion E; subst; auto.
  apply obind_ok in E as (ai & _ & E). apply obind_ok in E as (aj & _ & E). apply obind_ok in E as (oi & _ & E). apply obind_ok in E as (oj & _ & E).
  eapply (ofold_inv good_rows); [|exact G|exact E]. clear. intros A [[m1 m2] m3] A' _ G E. cbv zeta in E. destruct (pair_peak _ _ _ _ _ _ _ _ _ _ _).
  eapply peak_good; eauto. inversion E; subst; auto.
Qed.
Lemma point_good d ks os t A i A' : good_rows A -> setup_point (ly_refvar ly) d ks os t A i = Ok A' -> good_rows A'.
Proof.
  intros G E. unfold setup_point in E. apply obind_ok in E as (row & R & E). apply obind_ok in E as (s & S & E). apply obind_ok in E as (x & _ & E). apply obind_ok in E as (row' & X & E).
  eapply wrz_good; eauto. eapply edits_good; [|exact X]. pose proof (rdz_good _ _ _ G R) as GR.
  apply (ofold_inv (fun s => good_row (fst s))) in S; auto. clear. intros [r0 f0] k s' _ G E. cbn [fst] in *. apply obind_ok in E as (v & _ & E). cbv zeta in E.
  destruct (phase_setup _ _ _ _ _ _ _ _ _) as [fac l]. apply omap_ok in E as (r1 & E & ->). cbn [fst]. eapply edits_good; eauto.
Qed.
Lemma cut_good d a b A c A' : nth_error vref c = Some true -> good_rows A -> cut_column d a b A c = Ok A' -> good_rows A'.
Proof.
  intros V G E. unfold cut_column in E. apply obind_ok in E as (col & _ & E). apply obind_ok in E as (col' & _ & E).
  eapply (ofold_inv good_rows); [|exact G|exact E]. intros A1 i A2 _ G1 E1. apply obind_ok in E1 as (row & R & E1). apply obind_ok in E1 as (x & _ & E1). apply obind_ok in E1 as (row' & X & E1).
  eapply wrz_good; eauto. eapply write_good; [|intros (_ & U & _); exact (U V)|exact X]. eapply rdz_good; eauto.
Qed.
Lemma diff_shape fuel d psel is a b na nb A : calc_range d = Ok (a, b, na, nb) -> n = Z.to_nat (nb + 1) -> determine_diff fuel d psel ly is vref = Ok A -> good_rows A.
Proof.
  intros CR EN E. unfold determine_diff in E. rewrite CR in E. cbn [obind] in E. destruct (nb + 1 <? 0)%Z; [discriminate|]. rewrite <- EN in E. clear EN CR. apply obind_ok in E as (os & _ & E).
  apply obind_ok in E as ([[A1 t] ks] & E1 & E). apply obind_ok in E as (A2 & E2 & E).
  apply (ofold_inv (fun s => good_rows (fst (fst s)))) in E1.
  2:{ clear. intros [[A t] ks] [k [e|]] s' _ G E; cbn [fst snd] in *. 2:{ inversion E; subst; auto. } apply obind_ok in E as (op & _ & E). apply obind_ok in E as (oa & _ & E). apply obind_ok in E as (q & _ & E). apply obind_ok in E as (t' & _ & E). apply obind_ok in E as (A' & X & E). inversion E; subst. cbn [fst]. eapply phase_good; eauto. }
  2:{ cbn [fst]. split. apply repeat_length. intros row I. apply repeat_spec in I. subst row. split. apply repeat_length. intros c [U _]. apply nth_error_repeat. exact U. }
  cbn [fst] in E1. apply (ofold_inv good_rows) in E2; auto. 2:{ intros s x s' _. apply point_good. }
  destruct (Rlt_dec 0 (cd_qmax d)). 2:{ inversion E; subst; auto. }
  eapply (ofold_inv good_rows); [|exact E2|exact E]. intros s c s' _ G X. apply obind_ok in X as (bb & R & X). apply rd_inv in R. destruct bb. eapply cut_good; eauto. inversion X; subst; auto.
Qed.
End Shape.

(** ** phases with given scale factors *)
Fixpoint scaled (x : nat -> R) (k : nat) (psel : list (option centry)) : list (option centry) :=
  match psel with [] => [] | o :: r => option_map (with_pscale (x k)) o :: scaled x (S k) r end.
Lemma scaled_len x : forall psel k, length (scaled x k psel) = length psel.
Proof. induction psel; intros k; simpl; auto. Qed.
Lemma scaled_nth x : forall psel k i, nth_error (scaled x k psel) i = option_map (option_map (with_pscale (x (k + i)%nat))) (nth_error psel i).
Proof.
  induction psel as [|o r IH]; intros k i. destruct i; reflexivity. destruct i as [|i]; cbn [scaled nth_error]. rewrite Nat.add_0_r. reflexivity. rewrite IH. replace (S k + i)%nat with (k + S i)%nat by lia. reflexivity.
Qed.
Lemma scaled_nth0 x psel i : nth i (scaled x 0 psel) None = option_map (with_pscale (x i)) (nth i psel None).
Proof.
  pose proof (scaled_nth x psel 0 i) as H. rewrite Nat.add_0_l in H. destruct (nth_error psel i) as [o|] eqn:E.
  - rewrite (nth_error_nth _ _ _ H), (nth_error_nth _ _ _ E). reflexivity.
  - apply nth_error_None in E. rewrite !nth_overflow; auto. rewrite scaled_len; auto.
Qed.
Lemma scaled_in x psel z : In z (numbered 0 (scaled x 0 psel)) -> exists e, In (fst z, e) (numbered 0 psel) /\ z = (fst z, with_pscale (x (fst z)) e).
Proof.
  destruct z as [ip e']. intros I. apply numbered_in in I as [_ I]. rewrite scaled_nth in I. rewrite Nat.sub_0_r, Nat.add_0_l in I. destruct (nth_error psel ip) as [[e|]|] eqn:E; cbn [option_map] in I; try discriminate.
  inversion I; subst. exists e. split; auto. apply numbered_in. rewrite Nat.sub_0_r. split; [lia|auto].
Qed.
Lemma scaled_found d x psel f0 pts : found d psel f0 pts -> found d (scaled x 0 psel) f0 pts.
Proof. intros H z I. apply scaled_in in I as (e & I & ->). cbn [fst snd]. exact (H _ I). Qed.
Lemma scaled_sane d x psel : (forall e, In e (selected_entries psel) -> up_to_date e /\ sane_phase d (en_ph e)) ->
  forall e, In e (selected_entries (scaled x 0 psel)) -> up_to_date e /\ sane_phase d (en_ph e).
Proof.
  intros H e' I. rewrite <- (numbered_sel _ 0) in I. apply in_map_iff in I as (z & <- & I). apply scaled_in in I as (e & I & ->). cbn [snd].
  assert (J : In e (selected_entries psel)). { rewrite <- (numbered_sel psel 0). apply in_map_iff. exists (fst z, e). auto. } exact (H e J).
Qed.
Lemma scaled_counts x psel natoms : counts_fit psel natoms -> counts_fit (scaled x 0 psel) natoms.
Proof.
  intros H ip e' E. rewrite scaled_nth in E. destruct (nth_error psel ip) as [[e|]|] eqn:Q; cbn [option_map] in E; try discriminate. inversion E; subst. exact (H ip e Q).
Qed.
Lemma scaled_Wn d x psel pts ip : Wn d (scaled x 0 psel) pts ip = Wn d psel pts ip.
Proof. unfold Wn. rewrite scaled_nth. destruct (nth_error psel ip) as [[e|]|]; reflexivity. Qed.
Lemma scaled_Cn d x psel ip : Cn d (scaled x 0 psel) ip = Cn d psel ip.
Proof.
  unfold Cn. rewrite scaled_nth. destruct (nth_error psel ip) as [[e|]|]; try reflexivity. cbn [option_map]. apply functional_extensionality. intros [[i j] t]. apply functional_extensionality. intros g.
  unfold Cof. destruct (contributes_dec d (en_ph (with_pscale (x (0 + ip)%nat) e)) _ _ t g) as [A|A], (contributes_dec d (en_ph e) _ _ t g) as [B|B]; auto; contradiction.
Qed.

(** what phase ip gives with scale factor 1 *)
Definition unit_pdf (d : cdata) (psel : list (option centry)) (pts : nat -> list (Z * Z * Z)) (ip : nat) (g : Z) : R :=
  match nth ip psel None with None => 0 | Some e => cd_dscale d * fixed_phase d e (Wn d psel pts ip) (Cn d psel ip) g end.
Lemma scaled_pdf d x psel pts g : fixed_pdf d (scaled x 0 psel) (Wn d psel pts) (Cn d psel) g = lsum (fun ip => x ip * unit_pdf d psel pts ip g) (seq 0 (length psel)).
Proof.
  unfold fixed_pdf. rewrite scaled_len. apply lsum_ext. intros ip _. unfold phase_term, unit_pdf. rewrite scaled_nth0. destruct (nth ip psel None) as [e|]; cbn [option_map]. 2: ring.
  change (cp_pscale (en_ph (with_pscale (x ip) e))) with (x ip). change (fixed_phase d (with_pscale (x ip) e)) with (fixed_phase d e). ring.
Qed.
Lemma scaled_with x ip y : forall psel k, on_nth ip (option_map (with_phase (set_phase_field FPscale y))) (scaled x k psel) = scaled (fun i => if (i =? k + ip)%nat then y else x i) k psel.
Proof.
  revert ip. assert (EXT : forall psel k x x', (forall i, (k <= i)%nat -> x i = x' i) -> scaled x k psel = scaled x' k psel).
  { induction psel as [|o r IH]; intros k x1 x2 H; cbn [scaled]; auto. rewrite H by lia. f_equal. apply IH. intros; apply H; lia. }
  intros ip psel. revert ip. induction psel as [|o r IH]; intros ip k. destruct ip; reflexivity.
  destruct ip as [|ip]; cbn [scaled on_nth].
  - rewrite Nat.add_0_r, Nat.eqb_refl. f_equal. destruct o; reflexivity. apply EXT. intros i Hi. destruct (Nat.eqb_spec i k); [lia|auto].
  - rewrite IH. destruct (Nat.eqb_spec k (k + S ip)); [lia|]. f_equal. apply EXT. intros i Hi. replace (k + S ip)%nat with (S k + ip)%nat by lia. reflexivity.
Qed.
Lemma pick_one (F : nat -> R) ip n : lsum (fun k => if (k =? ip)%nat then F k else 0) (seq 0 n) = if (ip <? n)%nat then F ip else 0.
Proof.
  destruct (Nat.ltb_spec ip n) as [L|L].
  - rewrite (lsum_once (fun k => k) _ ip). rewrite Nat.eqb_refl; auto. rewrite map_id. apply seq_NoDup. apply in_seq; lia. intros c _ NE. destruct (Nat.eqb_spec c ip); [contradiction|auto].
  - rewrite (lsum_ext _ (fun _ => 0 * 0)). rewrite lsum_scal; ring. intros k I. apply in_seq in I. destruct (Nat.eqb_spec k ip); [lia|ring].
Qed.

Lemma scale_column d psel natoms nset is pts x ip g : good_grid d -> off_origin d -> (forall e, In e (selected_entries psel) -> up_to_date e /\ sane_phase d (en_ph e)) ->
  counts_fit psel natoms -> exists_var natoms nset (PV ip FPscale) -> (idx d (calc_lo d) <= g)%Z ->
  leffect (PV ip FPscale) (all_labs d is pts (numbered 0 (scaled x 0 psel)) g) (Some 0) = Some (unit_pdf d psel pts ip g).
Proof.
  intros G O AR CF V LO. set (ps := scaled x 0 psel).
  destruct (claimed_holds d ps natoms nset is pts (PV ip FPscale) g G O (scaled_sane d x psel AR) (scaled_counts x psel natoms CF) V) as (D & H & E); auto.
  { intros e _. exact I. }
  rewrite E. f_equal.
  specialize (H (x ip)). apply (uniqueness_limite _ _ _ _ (H ltac:(intros e Q; unfold ps in Q; rewrite scaled_nth in Q; destruct (nth_error psel ip) as [[e0|]|]; cbn [option_map] in Q; try discriminate; inversion Q; reflexivity))).
  set (S0 := lsum (fun k => if (k =? ip)%nat then 0 else x k * unit_pdf d psel pts k g) (seq 0 (length psel))).
  apply dlim_ext with (f := fun y => S0 + y * unit_pdf d psel pts ip g).
  - intros y. cbn [data_with phases_with]. unfold ps. rewrite (scaled_with x ip y psel 0). cbn [Nat.add].
    transitivity (fixed_pdf d (scaled (fun i => if (i =? ip)%nat then y else x i) 0 psel) (Wn d psel pts) (Cn d psel) g).
    { rewrite scaled_pdf. rewrite (lsum_ext _ (fun k => (if (k =? ip)%nat then 0 else x k * unit_pdf d psel pts k g) + y * (if (k =? ip)%nat then unit_pdf d psel pts k g else 0))) by (intros k _; destruct (k =? ip)%nat; ring).
      rewrite lsum_plus, lsum_scal, (pick_one (fun k => unit_pdf d psel pts k g)). fold S0. destruct (Nat.ltb_spec ip (length psel)); auto.
      unfold unit_pdf. rewrite nth_overflow by auto. ring. }
    unfold fixed_pdf. apply lsum_ext. intros k _. unfold phase_term. rewrite scaled_Wn, scaled_Cn. reflexivity.
  - eapply dl_eq. apply derivable_pt_lim_plus. apply dlim_const. apply dmc. apply did. ring.
Qed.

(** ** after the cutoff *)
Definition fin (d : cdata) (lo hi : Z) (V : Z -> R) (g : Z) : R :=
  if Rlt_dec 0 (cd_qmax d) then
    let n := Z.to_nat (hi - lo + 1) in
    fil (cd_qmax d) (cd_deltar d) (2 ^ Nat.log2_up (2 * n)) n (fun j => V (lo + Z.of_nat j)%Z) (Z.to_nat (g - lo))
  else V g.
Lemma holds_fin d lo hi V t g : (0 <= lo)%Z -> (lo <= g <= hi)%Z -> holds_pdf d lo hi V t -> el t g = Some (fin d lo hi V g).
Proof.
  intros L0 Hg (_ & _ & A & B). unfold fin. destruct (Rlt_dec 0 (cd_qmax d)) as [Q|Q]. 2:{ apply A; auto; lra. }
  destruct (B Q) as (out & (P2 & PA & LO & EQ) & X). rewrite X by auto. f_equal. set (n := Z.to_nat (hi - lo + 1)). cbv zeta.
  assert (LM : length (map V (from_to lo hi)) = n) by (rewrite map_length; apply from_to_len). rewrite LM in *.
  assert (P2 = (2 ^ Nat.log2_up (2 * n))%nat). { apply (pad_unique n); auto. apply pad_ok. unfold n. lia. } subst P2.
  rewrite EQ by (unfold n; lia). unfold fil. f_equal. apply rsum_ext. intros j Hj. f_equal.
  pose proof (from_to_nth lo hi V (lo + Z.of_nat j)) as E. replace (Z.to_nat (lo + Z.of_nat j - lo)) with j in E by lia. apply E. unfold n in Hj. lia.
Qed.
Lemma fin_ext d lo hi V V' g : (forall g, V g = V' g) -> fin d lo hi V g = fin d lo hi V' g.
Proof. intros E. unfold fin. destruct (Rlt_dec 0 (cd_qmax d)); auto. cbv zeta. unfold fil. f_equal. apply rsum_ext. intros j _. rewrite E. reflexivity. Qed.
Lemma fin_sum d lo hi (x : nat -> R) (F : nat -> Z -> R) g : forall l, fin d lo hi (fun g => lsum (fun ip => x ip * F ip g) l) g = lsum (fun ip => x ip * fin d lo hi (F ip) g) l.
Proof.
  induction l as [|a l IH].
  - rewrite lsum_nil. unfold fin. destruct (Rlt_dec 0 (cd_qmax d)); auto. cbv zeta. unfold fil. rewrite rsum_zero. ring. intros j _. rewrite lsum_nil. ring.
  - rewrite lsum_cons, <- IH. rewrite (fin_ext d lo hi _ (fun g => x a * F a g + 1 * lsum (fun ip => x ip * F ip g) l)) by (intros; rewrite lsum_cons; ring).
    unfold fin. destruct (Rlt_dec 0 (cd_qmax d)); [|ring]. cbv zeta. rewrite (fil_lin (cd_qmax d) (cd_deltar d) _ _ (fun j => F a (lo + Z.of_nat j)%Z) (fun j => lsum (fun ip => x ip * F ip (lo + Z.of_nat j)%Z) l)). ring.
Qed.

(** one data set for all scale factors *)
Theorem scale_set d psel : good_grid d -> off_origin d -> good_filter d -> (forall e, In e (selected_entries psel) -> up_to_date e /\ sane_phase d (en_ph e)) ->
  exists f0 lo hi f1 f2 F, point_ranges d lo hi f1 f2 /\
  forall find natoms nset npar ly vref is, counts_fit psel natoms -> (is < nset)%nat -> fit_setup find natoms nset npar = Ok ly -> columns_fit find natoms nset vref ->
  forall x fuel, (f0 <= fuel)%nat -> exists t A, determine fuel d (scaled x 0 psel) = Ok (f1, f2, t) /\
  (forall g, (lo <= g <= hi)%Z -> el t g = Some (lsum (fun ip => x ip * F ip g) (seq 0 (length psel)))) /\
  determine_diff fuel d (scaled x 0 psel) ly is vref = Ok A /\ good_rows vref ly (Z.to_nat (hi + 1)) A /\
  forall ip c g, exists_var natoms nset (PV ip FPscale) -> find (PV ip FPscale) = Some c -> (lo <= g <= hi)%Z -> el (column A c) g = Some (F ip g).
Proof.
  intros G O GF AR. destruct (found_some d psel G AR) as (f0 & pts & PT). pose proof (ranges_ok d G) as RG. pose proof (lo_hi d G) as LH.
  set (lo := idx d (calc_lo d)) in *. set (hi := idx d (calc_hi d)) in *.
  exists f0, lo, hi, (idx d (cd_rfmin d)), (idx d (cd_rfmax d)), (fun ip => fin d lo hi (unit_pdf d psel pts ip)). split; auto.
  intros find natoms nset npar ly vref is CF IS FS CO x fuel Hf.
  destruct (columns_with d (scaled x 0 psel) find natoms nset npar ly vref is f0 pts (scaled_found d x psel f0 pts PT) G O GF (scaled_sane d x psel AR) (scaled_counts x psel natoms CF) IS FS CO) as (_ & X).
  destruct (X fuel Hf) as (_ & (t & ET & HT) & A & EA & _ & HA). exists t, A. split; auto. split.
  { intros g Hg. fold lo hi in HT. rewrite (holds_fin d lo hi _ t g ltac:(lia) Hg HT). f_equal. rewrite <- fin_sum. apply fin_ext. intros g'. rewrite <- scaled_pdf. unfold fixed_pdf. apply lsum_ext. intros k _. unfold phase_term. rewrite scaled_Wn, scaled_Cn. reflexivity. }
  split; auto. split. { eapply diff_shape; eauto. apply (calc_range_ok d G). }
  intros ip c g V FV Hg. apply holds_fin; auto. lia. apply (HA (PV ip FPscale) c); auto. intros g' Hg'. apply (scale_column d psel natoms nset); auto. lia.
Qed.
