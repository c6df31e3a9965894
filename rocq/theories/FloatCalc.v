(** Calculation range and peak range in binary64. *)
From Coq Require Import List ZArith Bool Reals Lia Lra Psatz SpecFloat.
From Flocq Require Import Core.Core IEEE754.BinarySingleNaN.
From Verif Require Import Base PdfModel PdfProof FloatModel FloatSpec FloatArith FloatProof.
Import ListNotations.
Local Open Scope R_scope.

Lemma sign_pos (x : f64) : Bsign x = false -> 0 <= val x.
Proof.
  destruct x as [s|s| |s m e H]; cbn; intros E; try lra. subst s. apply F2R_ge_0. cbn. lia.
Qed.
Lemma finite_neg m e H : val (B754_finite true m e H : f64) < 0.
Proof. apply F2R_lt_0. cbn. lia. Qed.
Lemma finite_pos m e H : 0 < val (B754_finite false m e H : f64).
Proof. apply F2R_gt_0. cbn. lia. Qed.
Lemma fzero_val : val fzero = 0. Proof. reflexivity. Qed.
Lemma fzero_fin : fin fzero. Proof. reflexivity. Qed.
(** not below zero: NaN, infinity, or a number *)
Lemma nonneg_cases (x : f64) : flt x fzero = false -> x = B754_nan \/ x = B754_infinity false \/ (fin x /\ 0 <= val x).
Proof.
  intros H. destruct x as [s|s| |s m e Hb].
  - right; right. split; [reflexivity|]. cbn. lra.
  - destruct s; [discriminate H|]. right; now left.
  - now left.
  - right; right. split; [reflexivity|]. destruct s; [|left; apply finite_pos].
    exfalso. rewrite flt_val in H by reflexivity. rewrite fzero_val in H. rewrite Rlt_bool_true in H by apply finite_neg. discriminate H.
Qed.
Lemma over_inf (x : f64) b : B2SF x = binary_overflow 53 1024 mode_NE b -> x = B754_infinity b.
Proof. destruct x; cbn; intros H; try discriminate H. injection H as ->. reflexivity. Qed.

(** d - y and d + y for y not below zero *)
Lemma fsub_down d y : fin d -> flt y fzero = false ->
  fsub d y = B754_nan \/ fsub d y = B754_infinity true \/ (fin (fsub d y) /\ val (fsub d y) <= val d).
Proof.
  intros F H. destruct (nonneg_cases y H) as [-> |[-> |[Fy P]]].
  - left. destruct d; reflexivity.
  - right; left. destruct d; try discriminate F; reflexivity.
  - pose proof (Bminus_correct 53 1024 _ _ mode_NE d y F Fy) as C.
    match type of C with if ?c then _ else _ => destruct c eqn:E end.
    + right; right. destruct C as (V & G & _). split; [exact G|]. unfold val at 1, fsub. rewrite V.
      rewrite <- (rn_val d). apply rn_mono. fold (val d) (val y). lra.
    + right; left. destruct C as [C S]. apply over_inf in C. unfold fsub. rewrite C. f_equal. rewrite S.
      destruct y as [s|s| |s m e Hb]; try discriminate Fy.
      * exfalso. apply Rlt_bool_false_inv in E || idtac.
        assert (B : Rabs (rn (val d - 0)) < big) by (rewrite Rminus_0_r, rn_val; apply (abs_B2R_lt_emax 53 1024)).
        cbn [B2R] in E. unfold rn, val, big in B. rewrite Rlt_bool_true in E by exact B. discriminate E.
      * destruct s; [pose proof (finite_neg m e Hb); lra|reflexivity].
Qed.
Lemma fadd_up d y : fin d -> flt y fzero = false ->
  fadd d y = B754_nan \/ fadd d y = B754_infinity false \/ (fin (fadd d y) /\ val d <= val (fadd d y)).
Proof.
  intros F H. destruct (nonneg_cases y H) as [-> |[-> |[Fy P]]].
  - left. destruct d; reflexivity.
  - right; left. destruct d; try discriminate F; reflexivity.
  - pose proof (Bplus_correct 53 1024 _ _ mode_NE d y F Fy) as C.
    match type of C with if ?c then _ else _ => destruct c eqn:E end.
    + right; right. destruct C as (V & G & _). split; [exact G|]. unfold val at 2, fadd. rewrite V.
      rewrite <- (rn_val d) at 1. apply rn_mono. fold (val d) (val y). lra.
    + right; left. destruct C as [C S]. apply over_inf in C. unfold fadd. rewrite C. f_equal. rewrite S.
      destruct y as [s|s| |s m e Hb]; try discriminate Fy.
      * exfalso.
        assert (B : Rabs (rn (val d + 0)) < big) by (rewrite Rplus_0_r, rn_val; apply (abs_B2R_lt_emax 53 1024)).
        cbn [B2R] in E. unfold rn, val, big in B. rewrite Rlt_bool_true in E by exact B. discriminate E.
      * destruct s; [pose proof (finite_neg m e Hb); lra|reflexivity].
Qed.
Lemma nan_d d y : is_nan d = true -> fsub d y = B754_nan /\ fadd d y = B754_nan.
Proof. destruct d; try discriminate. intros _. split; destruct y; reflexivity. Qed.
Lemma five_ok : fin (fofz 5) /\ val (fofz 5) = 5.
Proof. apply fofz_ok. lia. Qed.
Lemma five_sigma y : flt y fzero = false -> flt (fmul (fofz 5) y) fzero = false.
Proof.
  intros H. destruct five_ok as [F5 V5].
  destruct (nonneg_cases y H) as [-> |[-> |[Fy P]]]; [reflexivity|reflexivity|].
  pose proof (Bmult_correct 53 1024 _ _ mode_NE (fofz 5) y) as C.
  match type of C with if ?c then _ else _ => destruct c eqn:E end.
  - destruct C as (V & G & _). assert (Fm : fin (fmul (fofz 5) y)) by (unfold fin, fmul; rewrite G; rewrite F5, Fy; reflexivity).
    rewrite flt_val; [|exact Fm|reflexivity]. apply Rlt_bool_false. rewrite fzero_val. unfold val, fmul. rewrite V.
    apply rn_pos. fold (val (fofz 5)) (val y). rewrite V5. lra.
  - apply over_inf in C. unfold fmul. rewrite C.
    destruct y as [s|s| |s m e Hb]; try discriminate Fy.
    + exfalso. cbn [B2R] in E. rewrite Rmult_0_r, round_0, Rabs_R0 in E by auto with typeclass_instances.
      rewrite Rlt_bool_true in E by apply bpow_gt_0. discriminate E.
    + destruct s; [pose proof (finite_neg m e Hb); lra|reflexivity].
Qed.

(** 12 pi *)
Definition p12 : f64 := fmul (fofz (6 * 2)) fpi.
Lemma p12_fin : fin p12. Proof. vm_compute. reflexivity. Qed.
Lemma p12_sign : Bsign p12 = false. Proof. vm_compute. reflexivity. Qed.
Lemma p12_pos : 0 <= val p12. Proof. apply sign_pos, p12_sign. Qed.
Lemma p12_38 : val p12 <= 38.
Proof.
  destruct (fofz_ok 38 ltac:(lia)) as [F V]. rewrite <- V. apply fle_R; [apply p12_fin|exact F|].
  vm_compute. reflexivity.
Qed.
Lemma div_inf (x : f64) b : fin x -> val (fdiv x (B754_infinity b)) = 0.
Proof. destruct x; intros F; try discriminate F; reflexivity. Qed.
Lemma flt_pos_cases (q : f64) : flt fzero q = true -> q = B754_infinity false \/ (fin q /\ 0 < val q).
Proof.
  intros H. destruct q as [s|s| |s m e Hb]; try discriminate H.
  - destruct s; [discriminate H|now left].
  - right. split; [reflexivity|]. apply flt_R in H; [exact H|reflexivity|reflexivity].
Qed.
Definition frext (q : f64) : f64 := fdiv p12 q.
Lemma rext_pos q : flt fzero q = true -> fin (frext q) -> 0 <= val (frext q).
Proof.
  intros H F. destruct (flt_pos_cases q H) as [-> |[Fq P]].
  - unfold frext. rewrite div_inf by apply p12_fin. lra.
  - unfold frext in *. assert (NZ : val q <> 0) by lra. destruct (fdiv_fin _ _ NZ F) as [_ ->]. apply rn_pos.
    apply Rmult_le_pos; [apply p12_pos|left; now apply Rinv_0_lt_compat].
Qed.

(** max and min of the standard library *)
Lemma fmax_ge a b : fin a -> fin (fmax a b) -> val a <= val (fmax a b).
Proof.
  intros Fa Fm. unfold fmax in *. destruct (flt a b) eqn:E; [|apply Rle_refl]. left. now apply flt_R.
Qed.
Lemma fmin_le a b : fin a -> fin (fmin a b) -> val (fmin a b) <= val a.
Proof.
  intros Fa Fm. unfold fmin in *. destruct (flt b a) eqn:E; [|lra]. left. now apply flt_R.
Qed.

Section Calc.
Variable s : fset.
Hypothesis (I : inv s) (A : apart s).

Lemma fcalc_of_inv a b c : fcalc_of s a b = Ok c ->
  fc_min c = a /\ fc_max c = b /\ findex s a = Ok (fc_nmin c) /\ findex s b = Ok (fc_nmax c).
Proof.
  unfold fcalc_of. destruct (findex s a) as [x|e| |]; cbn [obind]; try discriminate.
  destruct (findex s b) as [y|e| |]; cbn [obind]; try discriminate.
  intros H. injection H as <-. cbn. repeat split; reflexivity.
Qed.
(** what extendCalculationRange leaves *)
Lemma fextend_inv c : fextend s = Ok c ->
  findex s (fc_min c) = Ok (fc_nmin c) /\ findex s (fc_max c) = Ok (fc_nmax c) /\
  val (fs_rmin s) <= val (fc_min c) <= val (fs_rfmin s) /\ val (fs_rfmax s) <= val (fc_max c).
Proof.
  intros H. destruct (rf_bounds s I A) as (F1 & F2 & L1 & L2 & L3). unfold fextend in H.
  destruct (fcalc_of s (fs_rfmin s) (fs_rfmax s)) as [c0|e| |] eqn:E0; cbn [obind] in H; try discriminate H.
  destruct (flt fzero (fs_qmax s)) eqn:Q; cbn [negb] in H.
  - change (fdiv (fmul (fofz (6 * 2)) fpi) (fs_qmax s)) with (frext (fs_qmax s)) in H.
    apply fcalc_of_inv in H. destruct H as (Ea & Eb & Ia & Ib). rewrite Ea, Eb. split; [exact Ia|]. split; [exact Ib|].
    destruct (findex_ok s I A _ _ Ia) as [Fa _]. destruct (findex_ok s I A _ _ Ib) as [Fb _].
    destruct (fadd_fin _ _ Fb) as (_ & Fx & Vx). pose proof (rext_pos _ Q Fx) as P.
    split.
    + split; [apply fmax_ge; [apply A|exact Fa]|]. unfold fmax in *. destruct (flt (fs_rmin s) _) eqn:E.
      * destruct (fsub_fin _ _ Fa) as (_ & _ & ->). rewrite <- (rn_val (fs_rfmin s)) at 2. apply rn_mono. lra.
      * exact L1.
    + rewrite Vx. rewrite <- (rn_val (fs_rfmax s)) at 1. apply rn_mono. lra.
  - injection H as <-. apply fcalc_of_inv in E0. destruct E0 as (Ea & Eb & Ia & Ib). rewrite Ea, Eb.
    split; [exact Ia|]. split; [exact Ib|]. lra.
Qed.
Lemma calc_bounds c a b : fextend s = Ok c -> findex s (fs_rfmin s) = Ok a -> findex s (fs_rfmax s) = Ok b ->
  (0 <= fc_nmin c <= a)%Z /\ (a <= b <= fc_nmax c)%Z /\ (b < fs_bin s)%Z.
Proof.
  intros H Ha Hb. destruct (fextend_inv c H) as (I1 & I2 & (L1 & L2) & L3).
  destruct (rf_bounds s I A) as (F1 & F2 & M1 & M2 & M3).
  pose proof (findex_mono s I A _ _ _ _ (index_rmin s I A) I1 L1).
  pose proof (findex_mono s I A _ _ _ _ I1 Ha L2).
  pose proof (findex_mono s I A _ _ _ _ Ha Hb M2).
  pose proof (findex_mono s I A _ _ _ _ Hb I2 L3).
  pose proof (findex_mono s I A _ _ _ _ Hb (index_rmax s I A) M3). lia.
Qed.
(** one peak stays inside the calculated range, whatever its parameters *)
Lemma peak_bounds c dist sigma stepcut p : fextend s = Ok c -> fpeak s c dist sigma stepcut = Ok p ->
  (fc_nmin c <= fst p)%Z /\ (snd p <= fc_nmax c)%Z.
Proof.
  intros H Hp. destruct (fextend_inv c H) as (I1 & I2 & _). unfold fpeak in Hp.
  set (rb := fmax (fc_min c) _) in Hp. set (re0 := fmin (fc_max c) _) in Hp.
  set (re := if flt fzero stepcut then fmin re0 stepcut else re0) in Hp.
  destruct (findex s rb) as [ib|e| |] eqn:Eb; cbn [obind] in Hp; try discriminate Hp.
  destruct (findex s re) as [ie|e| |] eqn:Ee; cbn [obind] in Hp; try discriminate Hp.
  injection Hp as <-. cbn [fst snd].
  destruct (findex_ok s I A _ _ I1) as [Fc _]. destruct (findex_ok s I A _ _ I2) as [Fd _].
  destruct (findex_ok s I A _ _ Eb) as [Fb _]. destruct (findex_ok s I A _ _ Ee) as [Fe _].
  split.
  - eapply (findex_mono s I A); [exact I1|exact Eb|]. now apply fmax_ge.
  - eapply (findex_mono s I A); [exact Ee|exact I2|].
    assert (R0 : fin re0 -> val re0 <= val (fc_max c)) by (intros F; now apply fmin_le).
    unfold re in *. destruct (flt fzero stepcut); [|now apply R0].
    unfold fmin at 1 in Fe. unfold fmin at 1. destruct (flt stepcut re0) eqn:E; [|now apply R0].
    unfold re0, fmin in E |- *. destruct (flt _ (fc_max c)) eqn:E2 in E.
    + destruct (fadd dist (fmul (fofz 5) sigma)) as [z|z| |z m ex Hx] eqn:EX.
      * assert (Fz : fin (B754_zero z : f64)) by reflexivity. apply flt_R in E; [|exact Fe|exact Fz]. apply flt_R in E2; [|exact Fz|exact Fd]. lra.
      * destruct z; [|].
        -- destruct stepcut as [z2|z2| |z2 m2 e2 H2]; try discriminate Fe; try discriminate E; try (destruct z2; discriminate E).
        -- destruct (fc_max c) as [z2|z2| |z2 m2 e2 H2]; try discriminate Fd; try discriminate E2; try (destruct z2; discriminate E2).
      * destruct stepcut as [z2|z2| |z2 m2 e2 H2]; discriminate E.
      * assert (Fz : fin (B754_finite z m ex Hx : f64)) by reflexivity. apply flt_R in E; [|exact Fe|exact Fz]. apply flt_R in E2; [|exact Fz|exact Fd]. lra.
    + apply flt_R in E; [|exact Fe|exact Fd]. lra.
Qed.
Lemma peak_writes c dist sigma stepcut p : fextend s = Ok c -> fpeak s c dist sigma stepcut = Ok p ->
  exists l, fpeak_writes s c dist sigma stepcut = Ok l /\ (forall i, In i l <-> (fst p <= i <= snd p)%Z) /\
  (forall i, In i l -> (fc_nmin c <= i <= fc_nmax c)%Z).
Proof.
  intros H Hp. destruct (peak_bounds _ _ _ _ _ H Hp) as [B1 B2].
  destruct (fit_range s I A) as (a & b & Ha & Hb & _).
  destruct (calc_bounds c a b H Ha Hb) as ((C1 & _) & _).
  exists (zloop (fst p) (snd p)). unfold fpeak_writes. rewrite Hp. cbn [obind].
  assert (IN : forall i, In i (zloop (fst p) (snd p)) -> (fc_nmin c <= i <= fc_nmax c)%Z) by (intros i Hi; apply zloop_in in Hi; lia).
  split; [|split; [intros i; apply zloop_in|exact IN]].
  replace (forallb _ _) with true; [reflexivity|]. symmetry. apply forallb_forall. intros i Hi. specialize (IN i Hi).
  apply andb_true_intro. split; [apply Z.leb_le|apply Z.ltb_lt]; lia.
Qed.

(** ** no conversion is undefined when there is room *)
Section Room.
Hypothesis (Rm : roomy s) (Rp : ripples_ok s).
Lemma roomy_max : Rabs (val (fs_rmax s)) <= bpow radix2 30 * step s.
Proof.
  destruct Rm as [Rn R0]. pose proof (step_n s I A) as SN. pose proof (step_pos s I A) as SP.
  assert (N : steps s <= 536870912) by (unfold steps; apply IZR_le; lia).
  change (bpow radix2 29) with 536870912 in *. change (bpow radix2 30) with 1073741824.
  unfold width in SN. replace (val (fs_rmax s)) with (val (fs_rmin s) + step s * steps s) by lra.
  eapply Rle_trans; [apply Rabs_triang|]. pose proof (n_bounds s I A) as NB.
  rewrite (Rabs_pos_eq (step s * _)) by (apply Rmult_le_pos; lra). nra.
Qed.
Lemma step_small : step s <= bpow radix2 901.
Proof.
  pose proof (step_n s I A) as SN. pose proof (n_bounds s I A) as NB. pose proof (step_pos s I A) as SP. pose proof (D_le s A). nra.
Qed.
Lemma findex_room x : fin x -> Rabs (val x - val (fs_rmin s)) <= 2000000000 * step s -> exists k, findex s x = Ok k.
Proof.
  intros F H. pose proof (step_pos s I A) as SP. pose proof step_small as SS.
  pose proof (quo_err s I A x 2000000000 H ltac:(change (bpow radix2 32) with 4294967296; lra)) as Q.
  change (bpow radix2 (-16)) with (/ 65536) in Q.
  destruct (near_total (quo s (val x))) as (k & N). exists k.
  assert (QB : Rabs (quo s (val x)) <= 2000000001).
  { apply Rmult_le_reg_r with (step s); [exact SP|]. rewrite <- (Rabs_pos_eq (step s)) at 1 by lra. rewrite <- Rabs_mult.
    replace (quo s (val x) * step s) with ((quo s (val x) * step s - (val x - val (fs_rmin s))) + (val x - val (fs_rmin s))) by ring.
    eapply Rle_trans; [apply Rabs_triang|]. lra. }
  assert (QB' : -2000000001 <= quo s (val x) <= 2000000001) by (revert QB; unfold Rabs; destruct (Rcase_abs _); lra).
  apply (findex_in s I A); [exact F|..|exact N|].
  - apply rn_small with 940%Z; [lia|]. eapply Rle_trans; [exact H|].
    apply Rle_trans with (bpow radix2 32 * bpow radix2 901); [|rewrite <- bpow_plus; apply bpow_le; lia].
    change (bpow radix2 32) with 4294967296. pose proof (bpow_gt_0 radix2 901). nra.
  - apply Rlt_trans with (bpow radix2 32); [|apply bpow_lt; lia]. change (bpow radix2 32) with 4294967296. lra.
  - apply near_abs in N. assert (N' : - / 2 <= quo s (val x) - IZR k <= / 2) by (revert N; unfold Rabs; destruct (Rcase_abs _); lra).
    assert (-2000000002 <= IZR k <= 2000000002) by lra.
    assert (IZR (-2000000002) <= IZR k /\ IZR k <= IZR 2000000002) as [K1 K2] by (split; lra).
    apply le_IZR in K1. apply le_IZR in K2. lia.
Qed.
Lemma rext_ok : flt fzero (fs_qmax s) = true -> fin (frext (fs_qmax s)) /\ val (frext (fs_qmax s)) <= 536900000 * step s.
Proof.
  intros Q. pose proof (step_pos s I A) as SP. pose proof step_small as SS.
  destruct (flt_pos_cases _ Q) as [E|[Fq P]].
  - unfold frext. rewrite E. split; [reflexivity|]. rewrite div_inf by apply p12_fin. nra.
  - specialize (Rp Fq P). change (bpow radix2 29) with 536870912 in Rp.
    assert (PP : 0 <= val p12 / val (fs_qmax s)) by (apply Rmult_le_pos; [apply p12_pos|left; now apply Rinv_0_lt_compat]).
    assert (W : val p12 / val (fs_qmax s) <= 536870912 * step s).
    { eapply Rle_trans; [|exact Rp]. apply Rmult_le_compat_r; [left; now apply Rinv_0_lt_compat|apply p12_38]. }
    assert (NZ : val (fs_qmax s) <> 0) by lra. destruct (fdiv_ok p12 (fs_qmax s) p12_fin NZ) as [F V].
    { apply rn_small with 940%Z; [lia|]. rewrite Rabs_pos_eq by exact PP. eapply Rle_trans; [exact W|].
      apply Rle_trans with (bpow radix2 32 * bpow radix2 901); [|rewrite <- bpow_plus; apply bpow_le; lia].
      change (bpow radix2 32) with 4294967296. pose proof (bpow_gt_0 radix2 901). nra. }
    split; [exact F|]. unfold frext. rewrite V.
    destruct (Rle_or_lt (bpow radix2 (-1022)) (val p12 / val (fs_qmax s))) as [L|L].
    + destruct (rn_rel (val p12 / val (fs_qmax s))) as (e & He & E); [now rewrite Rabs_pos_eq|]. rewrite E. rewrite uu_val in He.
      assert (He' : e <= / 9007199254740992) by (revert He; unfold Rabs; destruct (Rcase_abs _); lra).
      set (v := val p12 / val (fs_qmax s)) in *. nra.
    + apply Rle_trans with (bpow radix2 (-1022)).
      * rewrite <- (rn_bpow (-1022)) by lia. apply rn_mono. lra.
      * pose proof (step_n s I A) as SN. pose proof (n_bounds s I A) as NB. destruct A as (_ & _ & _ & _ & HW & _).
        assert (ST : bpow radix2 (-931) <= step s).
        { apply Rmult_le_reg_r with (steps s); [lra|]. rewrite SN.
          apply Rle_trans with (bpow radix2 (-931) * bpow radix2 31); [apply Rmult_le_compat_l; [apply bpow_ge_0|apply NB]|].
          rewrite <- bpow_plus. exact HW. }
        assert (bpow radix2 (-1022) <= bpow radix2 (-931)) by (apply bpow_le; lia). lra.
Qed.
Lemma rcmax_ok : flt fzero (fs_qmax s) = true -> fin (fadd (fs_rfmax s) (frext (fs_qmax s))) /\
  Rabs (val (fadd (fs_rfmax s) (frext (fs_qmax s))) - val (fs_rmin s)) <= 1500000000 * step s.
Proof.
  intros Q. pose proof (step_pos s I A) as SP. pose proof step_small as SS. destruct (rext_ok Q) as [Fx Bx].
  pose proof (rext_pos _ Q Fx) as Px. destruct (rf_bounds s I A) as (F1 & F2 & L1 & L2 & L3).
  pose proof roomy_max as RM. destruct Rm as [RB R0]. set (x := val (frext (fs_qmax s))) in *.
  change (bpow radix2 29) with 536870912 in *. change (bpow radix2 30) with 1073741824 in *.
  assert (R0' : -536870912 * step s <= val (fs_rmin s) <= 536870912 * step s) by (revert R0; unfold Rabs; destruct (Rcase_abs _); lra).
  assert (RM' : val (fs_rmax s) <= 1073741824 * step s) by (revert RM; unfold Rabs; destruct (Rcase_abs _); lra).
  pose proof (step_n s I A) as SN. assert (N : steps s <= 536870912) by (unfold steps; apply IZR_le; lia). unfold width in SN.
  assert (B : Rabs (val (fs_rfmax s) + x) <= 2000000000 * step s) by (apply Rabs_le; lra).
  destruct (fadd_ok (fs_rfmax s) (frext (fs_qmax s)) F2 Fx) as [F V].
  { apply rn_small with 940%Z; [lia|]. eapply Rle_trans; [exact B|].
    apply Rle_trans with (bpow radix2 32 * bpow radix2 901); [|rewrite <- bpow_plus; apply bpow_le; lia].
    change (bpow radix2 32) with 4294967296. pose proof (bpow_gt_0 radix2 901). nra. }
  split; [exact F|]. rewrite V. destruct (rn_plus (fs_rfmax s) (frext (fs_qmax s))) as (e & He & E). fold x in E. fold x. rewrite E.
  rewrite uu_val in He.
  replace ((val (fs_rfmax s) + x) * (1 + e) - val (fs_rmin s)) with ((val (fs_rfmax s) - val (fs_rmin s)) + (x + (val (fs_rfmax s) + x) * e)) by ring.
  eapply Rle_trans; [apply Rabs_triang|]. rewrite Rabs_pos_eq by lra.
  assert (T1 : Rabs (x + (val (fs_rfmax s) + x) * e) <= x + 2000000000 * step s * / 9007199254740992).
  { eapply Rle_trans; [apply Rabs_triang|]. rewrite (Rabs_pos_eq x) by lra. rewrite Rabs_mult.
    apply Rplus_le_compat_l. apply Rmult_le_compat; try apply Rabs_pos; lra. }
  assert (step s * steps s <= 536870912 * step s) by nra. lra.
Qed.
Lemma extend_ok : exists c, fextend s = Ok c.
Proof.
  destruct (fit_range s I A) as (a & b & Ha & Hb & _). unfold fextend, fcalc_of at 1. rewrite Ha, Hb. cbn [obind].
  destruct (flt fzero (fs_qmax s)) eqn:Q; cbn [negb]; [|now eexists].
  change (fdiv (fmul (fofz (6 * 2)) fpi) (fs_qmax s)) with (frext (fs_qmax s)).
  destruct (rcmax_ok Q) as [Fm Bm]. destruct (findex_room _ Fm ltac:(pose proof (step_pos s I A); lra)) as (d & Hd).
  destruct (rext_ok Q) as [Fx Bx]. pose proof (rext_pos _ Q Fx) as Px.
  destruct (rf_bounds s I A) as (F1 & F2 & L1 & L2 & L3).
  assert (Hc : exists c, findex s (fmax (fs_rmin s) (fsub (fs_rfmin s) (frext (fs_qmax s)))) = Ok c).
  { unfold fmax. destruct (flt (fs_rmin s) _) eqn:E; [|eexists; apply (index_rmin s I A)].
    destruct (fsub_down (fs_rfmin s) (frext (fs_qmax s)) F1) as [X|[X|[X1 X2]]].
    - rewrite flt_val by (reflexivity || assumption). apply Rlt_bool_false. rewrite fzero_val. exact Px.
    - rewrite X in E. destruct (fs_rmin s); discriminate E.
    - rewrite X in E. destruct A as (F0 & _). destruct (fs_rmin s) as [z|z| |z m e Hz]; try discriminate F0; try discriminate E; try (destruct z; discriminate E).
    - apply flt_R in E; [|apply A|exact X1].
      destruct (findex_between s I A _ _ _ _ _ (index_rmin s I A) Ha X1 ltac:(lra)) as (k & K & _). now exists k. }
  destruct Hc as (c & Hc). unfold fcalc_of. rewrite Hc, Hd. cbn [obind]. now eexists.
Qed.
Lemma peak_ok c dist sigma stepcut : fextend s = Ok c -> peak_args s dist sigma ->
  exists p, fpeak s c dist sigma stepcut = Ok p.
Proof.
  intros H [PD PS]. destruct (fextend_inv c H) as (I1 & I2 & _).
  destruct (findex_ok s I A _ _ I1) as [Fc _]. destruct (findex_ok s I A _ _ I2) as [Fd _].
  pose proof (five_sigma _ PS) as P5. set (y := fmul (fofz 5) sigma) in *.
  pose proof (step_pos s I A) as SP.
  assert (DI : dist = B754_nan \/ exists k, fin dist /\ findex s dist = Ok k).
  { destruct PD as [E|[F B]]; [now left|]. right. destruct (findex_room dist F) as (k & K).
    - change (bpow radix2 29) with 536870912 in B. lra.
    - exists k. now split. }
  assert (RB : exists k, findex s (fmax (fc_min c) (fsub dist y)) = Ok k).
  { unfold fmax. destruct (flt (fc_min c) (fsub dist y)) eqn:E; [|eexists; exact I1].
    destruct DI as [-> |(k & F & K)].
    - destruct (nan_d B754_nan y eq_refl) as [X _]. rewrite X in E. destruct (fc_min c); discriminate E.
    - destruct (fsub_down dist y F P5) as [X|[X|[X1 X2]]].
      + rewrite X in E. destruct (fc_min c); discriminate E.
      + rewrite X in E. destruct (fc_min c) as [z|z| |z m e Hz]; try discriminate Fc; try discriminate E; try (destruct z; discriminate E).
      + apply flt_R in E; [|exact Fc|exact X1].
        destruct (findex_between s I A _ _ _ _ _ I1 K X1 ltac:(lra)) as (j & J & _). now exists j. }
  assert (RE : exists k, findex s (fmin (fc_max c) (fadd dist y)) = Ok k).
  { unfold fmin. destruct (flt (fadd dist y) (fc_max c)) eqn:E; [|eexists; exact I2].
    destruct DI as [-> |(k & F & K)].
    - destruct (nan_d B754_nan y eq_refl) as [_ X]. rewrite X in E. destruct (fc_max c); discriminate E.
    - destruct (fadd_up dist y F P5) as [X|[X|[X1 X2]]].
      + rewrite X in E. destruct (fc_max c); discriminate E.
      + rewrite X in E. destruct (fc_max c) as [z|z| |z m e Hz]; try discriminate Fd; try discriminate E; try (destruct z; discriminate E).
      + apply flt_R in E; [|exact X1|exact Fd].
        destruct (findex_between s I A _ _ _ _ _ K I2 X1 ltac:(lra)) as (j & J & _). now exists j. }
  unfold fpeak. fold y. destruct RB as (ib & HB). rewrite HB. cbn [obind]. destruct RE as (ie & HE).
  set (re := fmin (fc_max c) (fadd dist y)) in *. destruct (findex_ok s I A _ _ HE) as [Fe _].
  assert (RS : exists k, findex s (if flt fzero stepcut then fmin re stepcut else re) = Ok k).
  { destruct (flt fzero stepcut) eqn:Z; [|eexists; exact HE]. unfold fmin. destruct (flt stepcut re) eqn:E; [|eexists; exact HE].
    assert (Fs : fin stepcut) by (eapply fle_fin; [apply fzero_fin|exact Fe|now apply flt_fle|now apply flt_fle]).
    apply flt_R in E; [|exact Fs|exact Fe]. apply flt_R in Z; [|apply fzero_fin|exact Fs].
    destruct (findex_room fzero fzero_fin) as (k & K).
    { rewrite fzero_val. destruct Rm as [_ R0]. change (bpow radix2 29) with 536870912 in R0.
      rewrite Rminus_0_l, Rabs_Ropp. lra. }
    destruct (findex_between s I A _ _ _ _ _ K HE Fs ltac:(lra)) as (j & J & _). now exists j. }
  destruct RS as (k & K). rewrite K. cbn [obind]. now eexists.
Qed.
End Room.
End Calc.
