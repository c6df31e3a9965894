(** The statements of FloatProps, assembled. *)
From Coq Require Import List ZArith Bool Reals Lia Lra Psatz SpecFloat Sorting.Sorted.
From Flocq Require Import Core.Core IEEE754.BinarySingleNaN.
From Verif Require Import Base PdfModel PdfProof PdfTotal FloatModel FloatSpec FloatArith FloatProof FloatCalc.
Import ListNotations.
Local Open Scope R_scope.

Lemma fit_range_all s : reached s -> apart s -> exists a b, good_fit_range s a b.
Proof. intros H A. apply fit_range; [now apply reached_inv|exact A]. Qed.
Lemma grid_all s k : reached s -> apart s -> resolved s -> (0 <= k < fs_bin s)%Z -> good_point s k.
Proof. intros H A Rz K. apply grid_point; [now apply reached_inv|exact A|lia|exact Rz]. Qed.
Lemma grid_order_all s i j : reached s -> apart s -> resolved s -> (0 <= i < j)%Z -> (j < fs_bin s)%Z ->
  val (fgrid s i) < val (fgrid s j).
Proof. intros H A Rz K J. apply grid_lt; [now apply reached_inv|exact A|exact Rz|exact K|lia]. Qed.
Lemma range_grid_all s i j : reached s -> apart s -> resolved s -> (0 <= i < j)%Z -> (j < fs_bin s - 1)%Z ->
  exists s', frange s (fgrid s i) (fgrid s j) = Ok s' /\ findex s' (fs_rfmin s') = Ok i /\ findex s' (fs_rfmax s') = Ok j.
Proof. intros H A Rz K J. apply range_grid; try assumption. now apply reached_inv. Qed.

Lemma apart_keep s s' : fs_rmin s' = fs_rmin s -> fs_rmax s' = fs_rmax s -> fs_bin s' = fs_bin s -> apart s -> apart s'.
Proof. intros E1 E2 E3 A. unfold apart, width in *. rewrite E1, E2, E3. exact A. Qed.
Lemma calc_all s s' c : reached s -> apart s -> fdetermine s = Ok (s', c) ->
  good_fit_range s (fs_nfmin s') (fs_nfmax s') /\
  (0 <= fc_nmin c <= fs_nfmin s')%Z /\ (fs_nfmax s' <= fc_nmax c)%Z /\
  forall dist sigma stepcut ib ie, fpeak s' c dist sigma stepcut = Ok (ib, ie) ->
  exists l, fpeak_writes s' c dist sigma stepcut = Ok l /\ (forall i, In i l <-> (ib <= i <= ie)%Z) /\
  (forall i, In i l -> (fc_nmin c <= i <= fc_nmax c)%Z).
Proof.
  intros H A E. pose proof (reached_inv _ H) as I.
  pose proof (reached_inv _ (re_calc _ _ _ H E)) as I'.
  destruct (fdetermine_inv _ _ _ E) as (a & b & Ha & Hb & Es & Ex).
  assert (A' : apart s') by (rewrite Es; eapply apart_keep; [..|exact A]; reflexivity).
  destruct (fit_range s I A) as (a' & b' & G). assert (a' = a) by (destruct G as (G1 & _); congruence).
  assert (b' = b) by (destruct G as (_ & G1 & _); congruence). subst a' b'.
  assert (Na : fs_nfmin s' = a) by (now rewrite Es). assert (Nb : fs_nfmax s' = b) by (now rewrite Es).
  rewrite Na, Nb. split; [exact G|].
  assert (Ha' : findex s' (fs_rfmin s') = Ok a) by (rewrite Es; exact Ha).
  assert (Hb' : findex s' (fs_rfmax s') = Ok b) by (rewrite Es; exact Hb).
  destruct (calc_bounds s' I' A' c a b Ex Ha' Hb') as (C1 & C2 & C3).
  split; [exact C1|]. split; [lia|]. intros dist sigma stepcut ib ie P.
  destruct (peak_writes s' I' A' c dist sigma stepcut (ib, ie) Ex P) as (l & L1 & L2 & L3). exists l. now repeat split; try apply L2; try apply L3.
Qed.
Lemma no_undefined_all s : reached s -> apart s -> roomy s -> ripples_ok s ->
  exists s' c, fdetermine s = Ok (s', c) /\
  forall dist sigma stepcut, peak_args s dist sigma -> exists l, fpeak_writes s' c dist sigma stepcut = Ok l.
Proof.
  intros H A Rm Rp. pose proof (reached_inv _ H) as I. destruct (fit_range s I A) as (a & b & Ha & Hb & _).
  set (s' := mkFs (fs_rmin s) (fs_rmax s) (fs_rfmin s) (fs_rfmax s) (fs_bin s) (fs_dr s) (fs_qmax s) a b).
  assert (I' : inv s') by (eapply inv_keep; [..|exact I]; reflexivity).
  assert (A' : apart s') by (eapply apart_keep; [..|exact A]; reflexivity).
  destruct (extend_ok s' I' A' Rm Rp) as (c & C). exists s', c. split.
  - unfold fdetermine. rewrite Ha, Hb. cbn [obind]. fold s'. rewrite C. reflexivity.
  - intros dist sigma stepcut P. destruct (peak_ok s' I' A' Rm c dist sigma stepcut C P) as (p & Hp).
    destruct (peak_writes s' I' A' c _ _ _ _ C Hp) as (l & L & _). now exists l.
Qed.

(** ** getR *)
Lemma sorted_map {B} (f : Z -> B) (Rl : B -> B -> Prop) n a : (forall i j, (a <= i < j)%Z -> (j < a + Z.of_nat n)%Z -> Rl (f i) (f j)) ->
  StronglySorted Rl (map f (map (fun k => (a + Z.of_nat k)%Z) (seq 0 n))).
Proof.
  revert a. induction n as [|n IH]; intros a H; [constructor|].
  cbn [seq map]. rewrite <- seq_shift, !map_map. constructor.
  - specialize (IH (a + 1)%Z). rewrite map_map in IH.
    replace (map (fun x => f (a + Z.of_nat (S x))%Z) (seq 0 n)) with (map (fun x => f (a + 1 + Z.of_nat x)%Z) (seq 0 n)).
    + apply IH. intros i j H1 H2. apply H; lia.
    + apply map_ext. intros k. f_equal. lia.
  - rewrite Forall_map. apply Forall_forall. intros k Hk. apply in_seq in Hk. apply H; lia.
Qed.
Lemma getr_calc s s' c : reached s -> apart s -> resolved s -> fdetermine s = Ok (s', c) -> (fs_nfmin s' < fs_nfmax s')%Z ->
  exists l, fget_r s' = Ok l /\ l = map (fgrid s') (zloop (fs_nfmin s') (fs_nfmax s')) /\
  Z.of_nat (length l) = (fs_nfmax s' - fs_nfmin s' + 1)%Z /\ StronglySorted (fun x y => val x < val y) l.
Proof.
  intros H A Rz E L. destruct (calc_all _ _ _ H A E) as (G & _).
  destruct G as (_ & _ & G1 & G2 & _). destruct (fdetermine_inv _ _ _ E) as (a & b & _ & _ & Es & _).
  pose proof (re_calc _ _ _ H E) as H'.
  assert (A' : apart s') by (rewrite Es; eapply apart_keep; [..|exact A]; reflexivity).
  assert (Rz' : resolved s') by (rewrite Es; exact Rz).
  assert (Bn : fs_bin s' = fs_bin s) by (now rewrite Es).
  eexists. split; [|split; [reflexivity|split]].
  - unfold fget_r. destruct (Z.eqb_spec (fs_nfmax s' - fs_nfmin s' + 1) 1); [lia|].
    destruct (Z.ltb_spec (fs_nfmax s' - fs_nfmin s' + 1) 0); [lia|]. reflexivity.
  - rewrite map_length, zloop_len by lia. rewrite Z2Nat.id; lia.
  - unfold zloop. apply sorted_map. intros i j Hi Hj. rewrite Z2Nat.id in Hj by lia.
    apply grid_order_all; try assumption; lia.
Qed.
Lemma trunc_mag_spec m e :
  IZR (trunc_mag m e) <= IZR (Zpos m) * bpow radix2 e < IZR (trunc_mag m e) + 1.
Proof.
  unfold trunc_mag. destruct (Z.leb_spec 0 e) as [He|He].
  - rewrite <- mag_bounds by exact He. lra.
  - assert (D : (0 < 2 ^ (- e))%Z) by (apply Z.pow_pos_nonneg; lia).
    set (d := (2 ^ (- e))%Z) in *. set (q := (Zpos m / d)%Z).
    assert (E : bpow radix2 e = / IZR d).
    { unfold d. change 2%Z with (radix_val radix2). rewrite IZR_Zpower by lia. rewrite bpow_opp. now rewrite Rinv_inv. }
    rewrite E. assert (Dr : 0 < IZR d) by now apply IZR_lt.
    pose proof (Z.div_mod (Zpos m) d ltac:(lia)) as Q. fold q in Q.
    pose proof (Z.mod_pos_bound (Zpos m) d D) as M. set (r := (Zpos m mod d)%Z) in *.
    assert (Qr : IZR (Zpos m) = IZR d * IZR q + IZR r) by (rewrite <- mult_IZR, <- plus_IZR; f_equal; exact Q).
    assert (M0 : 0 <= IZR r) by (apply IZR_le; lia). assert (M1 : IZR r < IZR d) by (apply IZR_lt; lia).
    assert (V : IZR (Zpos m) * / IZR d = IZR q + IZR r / IZR d) by (rewrite Qr; field; lra).
    rewrite V. assert (0 <= IZR r / IZR d) by (apply Rmult_le_pos; [exact M0|left; apply Rinv_0_lt_compat; lra]).
    assert (IZR r / IZR d < 1) by (apply Rmult_lt_reg_r with (IZR d); [lra|]; unfold Rdiv; rewrite Rmult_assoc, Rinv_l by lra; lra).
    lra.
Qed.
Lemma ftrunc_pos x : fin x -> 0 < val x -> val x < 2147483648 -> exists k, ftrunc x = Ok k /\ IZR k <= val x < IZR k + 1.
Proof.
  intros F P L. destruct x as [b|b| |b m e H]; try discriminate F.
  - cbn in P. lra.
  - destruct b; [pose proof (finite_neg m e H); lra|]. pose proof (trunc_mag_spec m e) as T.
    assert (V : val (B754_finite false m e H : f64) = IZR (Zpos m) * bpow radix2 e) by reflexivity. rewrite V in *.
    exists (trunc_mag m e). split; [|exact T]. unfold ftrunc, fconv, to_int. cbn [cond_Zopp].
    assert (K1 : (-1 < trunc_mag m e)%Z) by (apply lt_IZR; lra).
    assert (K2 : (trunc_mag m e < 2147483648)%Z) by (apply lt_IZR; lra).
    rewrite (proj2 (Z.leb_le _ _)) by lia. rewrite (proj2 (Z.leb_le _ _)) by lia. reflexivity.
Qed.
(** a set with a fit range of one point: getR gives all points, or all but the last *)
Lemma getr_one s : reached s -> apart s -> fs_nfmin s = fs_nfmax s ->
  exists m, (m = fs_bin s \/ m = fs_bin s - 1)%Z /\ fget_r s = Ok (map (fgrid s) (zloop 0 (m - 1))).
Proof.
  intros H A E. pose proof (reached_inv _ H) as I. unfold fget_r. rewrite E, Z.sub_diag. cbn [Z.add Z.eqb Pos.eqb].
  pose proof (quo_rmax s I A) as Q. pose proof (n_bounds s I A) as N. rewrite b31 in N. pose proof (bin_ge s I A) as BG.
  destruct (sub_ok s A) as [F V]. pose proof (index_rmax s I A) as X.
  set (q := fdiv (fsub (fs_rmax s) (fs_rmin s)) (fs_dr s)) in *.
  assert (Fq : fin q /\ val q = quo s (val (fs_rmax s))).
  { pose proof X as X'. unfold findex in X'. fold q in X'. apply fnint_ok in X'. destruct X' as [Fq _]. split; [exact Fq|].
    destruct (fdiv_fin _ _ (hh_ne s I A) Fq) as [_ V']. unfold q. rewrite V', V. reflexivity. }
  destruct Fq as [Fq Vq]. rewrite <- Vq in Q. unfold steps in *.
  assert (Q' : -/1000 <= val q - IZR (fs_bin s - 1) <= / 1000) by (revert Q; unfold Rabs; destruct (Rcase_abs _); lra).
  assert (NB : IZR (fs_bin s - 1) <= 2147483646) by (apply IZR_le; destruct A as (_ & _ & _ & _ & _ & HH); lia).
  destruct (ftrunc_pos q Fq ltac:(lra) ltac:(lra)) as (k & K & (K1 & K2)). rewrite K. cbn [obind].
  assert (k < fs_bin s)%Z by (apply lt_IZR; rewrite minus_IZR in *; lra).
  assert (fs_bin s - 3 < k)%Z by (apply lt_IZR; rewrite minus_IZR in *; lra).
  exists (k + 1)%Z. split; [lia|]. rewrite Z.add_simpl_r. destruct (Z.ltb_spec (k - 0 + 1) 0); [lia|]. reflexivity.
Qed.
