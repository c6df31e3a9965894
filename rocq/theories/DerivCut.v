(** The Qmax cutoff of the columns of derivatives. *)
From Coq Require Import List Arith ZArith Reals Bool Lia Lra.
From Verif Require Import Base RSum MathModel MetricModel SphereModel PdfModel PdfSpec PdfProof PdfPeak PdfPhase PdfFft PdfTotal PdfSafe PdfFinal LayoutModel DerivModel DerivSpec DerivRow.
Import ListNotations.
Local Open Scope nat_scope.

Section Cut.
Variable d : cdata.
Hypothesis G : good_grid d.
Hypothesis O : off_origin d.
Hypothesis GF : good_filter d.
Let lo := idx d (calc_lo d).
Let hi := idx d (calc_hi d).
Let N := Z.to_nat (hi + 1).
Variable m : nat.

Lemma col_len c A : length (column A c) = length A. Proof. apply map_length. Qed.
Lemma el_column A c g : (0 <= g < Z.of_nat (length A))%Z -> el (column A c) g = cell A g c.
Proof.
  intros H. unfold el, column, cell, row_at. assert (L : (Z.to_nat g < length A)%nat) by lia. pose proof (map_nth (fun row : list num => nth c row None) A [] (Z.to_nat g)) as E. cbv beta in E. rewrite <- E.
  apply nth_indep. rewrite map_length. exact L.
Qed.
Lemma rd_cell A g c : mat N m A -> (0 <= g < Z.of_nat N)%Z -> c < m -> rd (row_at A g) c = Ok (cell A g c).
Proof. intros M H C. unfold rd, cell. pose proof (nth_error_nth' (row_at A g) (None : num) (n := c)) as E. rewrite E; auto. rewrite (row_len N m); auto. Qed.
Lemma collect_ok A c : mat N m A -> c < m -> forall l acc, (forall g, In g l -> (0 <= g < Z.of_nat N)%Z) ->
  ofold (fun col i => obind (rdz A i) (fun row => obind (rd row c) (fun x => Ok (col ++ [x])))) l acc = Ok (acc ++ map (fun g => cell A g c) l).
Proof.
  intros M C. induction l as [|g l IH]; intros acc B; cbn [ofold map]. rewrite app_nil_r; auto.
  rewrite (rdz_row N m) by (auto; apply B; left; auto). cbn [obind]. rewrite rd_cell by (auto; apply B; left; auto). cbn [obind].
  rewrite IH by (intros; apply B; right; auto). rewrite <- app_assoc. auto.
Qed.
Lemma put_ok (col : list num) c : c < m -> forall l A, NoDup l -> mat N m A -> (forall g, In g l -> (0 <= g < Z.of_nat N)%Z /\ (lo <= g /\ g - lo < Z.of_nat (length col))%Z) ->
  exists A', ofold (fun A i => obind (rdz A i) (fun row => obind (rdz col (i - lo)) (fun x => obind (wr row c x) (fun row => wrz A i row)))) l A = Ok A' /\ mat N m A' /\
  forall g c', (0 <= g < Z.of_nat N)%Z -> cell A' g c' = if in_dec Z.eq_dec g l then if c' =? c then el col (g - lo) else cell A g c' else cell A g c'.
Proof.
  intros C l A ND M B.
  destruct (rows_ok (fun g row => obind (rdz col (g - lo)) (fun x => wr row c x)) (fun g row => upd c (el col (g - lo)) row) N m l A) as (A' & E & M' & X); auto.
  { intros g I. apply B in I. tauto. }
  { intros g row I L. apply B in I. rewrite rdz_ok by lia. cbn [obind]. unfold wr. destruct (Nat.ltb_spec c (length row)); [|lia]. split; auto. rewrite upd_len. auto. }
  exists A'. split; [|split; auto].
  - rewrite <- E. clear. revert A. induction l as [|g l IH]; intros A; cbn [ofold]; auto.
    assert (Q : obind (rdz A g) (fun row => obind (rdz col (g - lo)) (fun x => obind (wr row c x) (fun row0 => wrz A g row0))) = obind (rdz A g) (fun row => obind (obind (rdz col (g - lo)) (fun x => wr row c x)) (fun row0 => wrz A g row0))).
    { destruct (rdz A g); cbn [obind]; auto. destruct (rdz col (g - lo)); cbn [obind]; auto. }
    etransitivity; [apply (f_equal (fun o => obind o _)); exact Q|]. clear Q. match goal with |- obind ?x _ = _ => destruct x end; cbn [obind]; auto; apply IH.
  - intros g c' Hg. destruct (X g Hg) as [X1 X2]. unfold cell. destruct (in_dec Z.eq_dec g l) as [I|I].
    + rewrite X1 by auto. rewrite nth_upd. 2:{ rewrite (row_len N m); auto. } destruct (c' =? c); auto.
    + rewrite X2 by auto. auto.
Qed.
(** values of a column at the calculated points *)
Definition vals (A : list (list num)) (c : nat) : list num := map (fun g => cell A g c) (zloop lo hi).
Lemma pts_in g : In g (zloop lo hi) -> (0 <= g < Z.of_nat N)%Z /\ (lo <= g <= hi)%Z.
Proof. rewrite zloop_in. pose proof (lo_hi d G) as LH. fold lo hi in LH. unfold N. lia. Qed.
Lemma vals_len A c : length (vals A c) = Z.to_nat (hi - lo + 1).
Proof. unfold vals. rewrite map_length, zloop_len; auto. pose proof (lo_hi d G) as LH. fold lo hi in LH. lia. Qed.
Lemma good_len (y : list num) : (0 < cd_qmax d)%R -> length y = Z.to_nat (hi - lo + 1) -> (4 * cd_qmax d * cd_deltar d * INR (length y) <= 1000000000)%R.
Proof.
  intros Q ->. specialize (GF Q). pose proof (lo_hi d G) as LH. fold lo hi in LH. pose proof (calc_order d G) as ((C1 & C2) & C3). pose proof G as (D & P0 & [R1 R2] & B).
  assert (INR (Z.to_nat (hi - lo + 1)) * cd_deltar d <= calc_hi d - calc_lo d + 2 * cd_deltar d)%R.
  { rewrite INR_IZR_INZ, Z2Nat.id, plus_IZR, minus_IZR by lia.
    pose proof (idx_nearest d G (calc_lo d) ltac:(lra)) as [A1 A2]. pose proof (idx_nearest d G (calc_hi d) ltac:(lra)) as [B1 B2]. fold lo in A1, A2. fold hi in B1, B2. unfold grid in *. lra. }
  assert (4 * cd_qmax d * (INR (Z.to_nat (hi - lo + 1)) * cd_deltar d) <= 4 * cd_qmax d * (calc_hi d - calc_lo d + 2 * cd_deltar d))%R by (apply Rmult_le_compat_l; lra). lra.
Qed.
Lemma cut_column_ok A c : (0 < cd_qmax d)%R -> mat N m A -> c < m -> exists col A',
  cutoff (cd_qmax d) (cd_deltar d) (vals A c) = Ok col /\ cut_column d lo hi A c = Ok A' /\ mat N m A' /\
  forall g c', (0 <= g < Z.of_nat N)%Z -> cell A' g c' = if (lo <=? g)%Z then if c' =? c then el col (g - lo) else cell A g c' else cell A g c'.
Proof.
  intros Q M C. pose proof (lo_hi d G) as LH. fold lo hi in LH. destruct (cutoff_any d G (vals A c) Q) as (col & E & L & _). rewrite vals_len. lia. apply good_len; auto. apply vals_len.
  rewrite vals_len in L. destruct (put_ok col c C (zloop lo hi) A (zloop_nodup _ _) M) as (A' & E' & M' & X).
  { intros g I. apply pts_in in I. lia. }
  exists col, A'. split; auto. split.
  - unfold cut_column. rewrite collect_ok; auto. 2:{ intros g I. apply pts_in in I. tauto. } cbn [obind app]. fold (vals A c). rewrite E. exact E'.
  - split; auto. intros g c' Hg. rewrite X by auto. destruct (in_dec Z.eq_dec g (zloop lo hi)) as [I|I]; rewrite zloop_in in I; destruct (Z.leb_spec lo g); auto; unfold N in Hg; lia.
Qed.
Lemma cut_loop (vref : list bool) : (0 < cd_qmax d)%R -> m = length vref -> forall l A, NoDup l -> (forall c, In c l -> c < m) -> mat N m A -> exists A',
  ofold (fun A c => obind (rd vref c) (fun b => if b then cut_column d lo hi A c else Ok A)) l A = Ok A' /\ mat N m A' /\
  forall c, (~ In c l -> forall g, (0 <= g < Z.of_nat N)%Z -> cell A' g c = cell A g c) /\
   (In c l -> nth_error vref c = Some true -> exists col, cutoff (cd_qmax d) (cd_deltar d) (vals A c) = Ok col /\
     forall g, (0 <= g < Z.of_nat N)%Z -> cell A' g c = if (lo <=? g)%Z then el col (g - lo) else cell A g c).
Proof.
  intros Q E. induction l as [|c l IH]; intros A ND B M; cbn [ofold].
  - exists A. split; auto. split; auto. intros c. split; auto. intros [].
  - inversion ND; subst x l0. assert (C : c < m) by (apply B; left; auto).
    destruct (nth_error vref c) as [b|] eqn:V. 2:{ apply nth_error_None in V. lia. }
    unfold rd at 1. rewrite V. cbn [obind].
    assert (S : exists A1, (if b then cut_column d lo hi A c else Ok A) = Ok A1 /\ mat N m A1 /\ (forall c' g, c' <> c -> (0 <= g < Z.of_nat N)%Z -> cell A1 g c' = cell A g c') /\
      (b = true -> exists col, cutoff (cd_qmax d) (cd_deltar d) (vals A c) = Ok col /\ forall g, (0 <= g < Z.of_nat N)%Z -> cell A1 g c = if (lo <=? g)%Z then el col (g - lo) else cell A g c)).
    { destruct b.
      - destruct (cut_column_ok A c Q M C) as (col & A1 & E1 & E2 & M1 & X). exists A1. split; auto. split; auto. split.
        + intros c' g Ne Hg. rewrite X by auto. destruct (Nat.eqb_spec c' c); [contradiction|]. destruct (lo <=? g)%Z; auto.
        + intros _. exists col. split; auto. intros g Hg. rewrite X by auto. rewrite Nat.eqb_refl. auto.
      - exists A. split; auto. split; auto. split; auto. discriminate. }
    destruct S as (A1 & -> & M1 & X1 & X2). cbn [obind]. destruct (IH A1) as (A' & E' & M' & X'); auto. { intros; apply B; right; auto. }
    exists A'. split; auto. split; auto. intros c'. destruct (X' c') as [Y1 Y2]. split.
    + intros NI g Hg. rewrite Y1 by (auto; intros I; apply NI; right; auto). apply X1; auto. intros ->. apply NI. left; auto.
    + intros [->|I] V'.
      * assert (b = true) by congruence. destruct (X2 H) as (col & E1 & X3). exists col. split; auto. intros g Hg. rewrite Y1 by auto. apply X3; auto.
      * assert (Ne : c' <> c) by (intros ->; contradiction). destruct (Y2 I V') as (col & E1 & X3). exists col. split.
        { rewrite <- E1. f_equal. unfold vals. apply map_ext_in. intros g Ig. apply pts_in in Ig. symmetry. apply X1; tauto. }
        intros g Hg. rewrite X3 by auto. destruct (lo <=? g)%Z; auto.
Qed.
Lemma from_to_zloop a b : from_to a b = zloop a b. Proof. reflexivity. Qed.
(** a column whose values are D before the cutoff *)
Lemma cut_all (vref : list bool) A : m = length vref -> mat N m A -> exists A',
  (if Rlt_dec 0 (cd_qmax d) then ofold (fun A c => obind (rd vref c) (fun b => if b then cut_column d lo hi A c else Ok A)) (seq 0 (length vref)) A else Ok A) = Ok A' /\ mat N m A' /\ (cd_qmax d <= 0 -> A' = A)%R /\
  forall c D, nth_error vref c = Some true -> (forall g, (0 <= g < lo)%Z -> cell A g c = Some 0%R) -> (forall g, (lo <= g <= hi)%Z -> cell A g c = Some (D g)) ->
  holds_pdf d lo hi D (column A' c).
Proof.
  intros E M. pose proof (lo_hi d G) as LH. fold lo hi in LH. assert (NL : Z.of_nat N = (hi + 1)%Z) by (unfold N; lia).
  destruct (Rlt_dec 0 (cd_qmax d)) as [Q|Q].
  - destruct (cut_loop vref Q E (seq 0 (length vref)) A (seq_NoDup _ _)) as (A' & E' & M' & X); auto. { intros c I. apply in_seq in I. lia. }
    exists A'. split; auto. split; auto. split. intros; lra. intros c D V Z0 Z1. assert (C : In c (seq 0 (length vref))). { apply in_seq. assert (c < length vref) by (apply nth_error_Some; congruence). lia. }
    destruct (X c) as [_ X2]. destruct (X2 C V) as (col & EC & Y). destruct M' as [L' R'].
    assert (VE : vals A c = map Some (map D (zloop lo hi))). { unfold vals. rewrite map_map. apply map_ext_in. intros g I. apply zloop_in in I. apply Z1. auto. }
    rewrite VE in EC. unfold cutoff in EC. rewrite all_fin_some in EC.
    destruct (cutoff_ok (cd_qmax d) (cd_deltar d) (map D (zloop lo hi))) as (out & EO & F); auto. apply G. rewrite map_length, zloop_len; lia.
    { pose proof (good_len (vals A c) Q (vals_len A c)) as B. rewrite VE, map_length in B. exact B. }
    rewrite EO in EC. cbn [omap] in EC. injection EC as <-.
    split. rewrite col_len, L'. auto. split; [|split].
    + intros g Hg. rewrite el_column by lia. rewrite Y by lia. destruct (Z.leb_spec lo g); [lia|]. apply Z0. auto.
    + intros; lra.
    + intros _. exists out. split; auto. intros g Hg. rewrite el_column by lia. rewrite Y by lia. destruct (Z.leb_spec lo g); [|lia].
      unfold el. rewrite (@nth_indep num _ _ None (Some 0%R)). apply (map_nth Some). rewrite map_length. destruct F as (P & _ & LL & _). rewrite LL, map_length, zloop_len; lia.
  - exists A. split; auto. split; auto. split; auto. intros c D V Z0 Z1. destruct M as [L R]. split. rewrite col_len, L. auto. split; [|split].
    + intros g Hg. rewrite el_column by lia. apply Z0; auto.
    + intros _ g Hg. rewrite el_column by lia. apply Z1; auto.
    + intros; contradiction.
Qed.
End Cut.
