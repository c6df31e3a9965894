(** Grid, arrays and sums of the PDF calculation. *)
From Coq Require Import List Arith ZArith Reals Bool Lia Lra Permutation.
From Verif Require Import Base RSum MathModel MetricModel MetricSpec SphereModel SphereSpec SphereProof PdfModel PdfSpec.
Import ListNotations.
Local Open Scope R_scope.

(** ** rounding *)
Lemma rnd_pos x : 0 <= x -> IZR (rnd x) - 1 / 2 <= x < IZR (rnd x) + 1 / 2.
Proof.
  intros H. unfold rnd. destruct (Rlt_dec x 0); [lra|].
  unfold zfloor. destruct (archimed (x + 1/2)). rewrite minus_IZR. lra.
Qed.
Lemma rnd_neg x : x < 0 -> IZR (rnd x) - 1 / 2 < x <= IZR (rnd x) + 1 / 2.
Proof.
  intros H. unfold rnd. destruct (Rlt_dec x 0); [|lra].
  unfold zfloor. destruct (archimed (1/2 - x)). rewrite opp_IZR, minus_IZR. lra.
Qed.
Lemma rnd_mono x y : x <= y -> (rnd x <= rnd y)%Z.
Proof.
  intros H. apply Z.lt_succ_r. apply lt_IZR. rewrite succ_IZR.
  destruct (Rlt_dec x 0), (Rlt_dec y 0); repeat match goal with
  | H : ?z < 0 |- _ => pose proof (rnd_neg z H); revert H
  | H : ~ ?z < 0 |- _ => apply Rnot_lt_le in H; pose proof (rnd_pos z H); revert H end; intros; try lra.
Qed.
Lemma rnd_nonneg x : 0 <= x -> (0 <= rnd x)%Z.
Proof. intros H. pose proof (rnd_pos x H). assert (-1 < rnd x)%Z; [|lia]. apply lt_IZR. lra. Qed.
Lemma rnd_unique x n : IZR n - 1/2 <= x < IZR n + 1/2 -> 0 <= x -> rnd x = n.
Proof.
  intros H H0. pose proof (rnd_pos x H0). assert (rnd x < n + 1)%Z by (apply lt_IZR; rewrite plus_IZR; lra).
  assert (n < rnd x + 1)%Z by (apply lt_IZR; rewrite plus_IZR; lra). lia.
Qed.
Lemma rnd_le x g : 0 <= x -> ((rnd x <= g)%Z <-> x < IZR g + 1/2).
Proof.
  intros H. pose proof (rnd_pos x H). split; intros Hg.
  - apply IZR_le in Hg. lra.
  - assert (rnd x < g + 1)%Z; [|lia]. apply lt_IZR. rewrite plus_IZR. lra.
Qed.
Lemma rnd_ge x g : (0 <= g)%Z -> ((g <= rnd x)%Z <-> IZR g - 1/2 <= x /\ - (1/2) < x).
Proof.
  intros Hg. destruct (Rlt_dec x 0) as [N|N].
  - pose proof (rnd_neg x N). split.
    + intros H'. apply IZR_le in H'. apply IZR_le in Hg. lra.
    + intros [H1 H2]. assert (g < rnd x + 1)%Z; [|lia]. apply lt_IZR. rewrite plus_IZR.
      assert (0 < rnd x + 1)%Z by (apply lt_IZR; rewrite plus_IZR; lra).
      assert (g < 1)%Z by (apply lt_IZR; lra). assert (g = 0%Z) by lia. subst g.
      apply IZR_lt in H0. rewrite plus_IZR in H0. lra.
  - apply Rnot_lt_le in N. pose proof (rnd_pos x N). split.
    + intros H'. apply IZR_le in H'. lra.
    + intros [H1 _]. assert (g < rnd x + 1)%Z; [|lia]. apply lt_IZR. rewrite plus_IZR. lra.
Qed.

Lemma to_int_ok z : (-2147483648 <= z <= 2147483647)%Z -> to_int z = Ok z.
Proof. intros [H1 H2]. unfold to_int. apply Z.leb_le in H1, H2. rewrite H1, H2. reflexivity. Qed.

Definition big : R := 2147483647.
Lemma rnd_int x : - big <= x <= big -> (-2147483648 <= rnd x <= 2147483647)%Z.
Proof.
  unfold big. intros [H1 H2]. destruct (Rlt_dec x 0) as [N|N].
  - pose proof (rnd_neg x N) as [A B]. split.
    + assert (-2147483648 < rnd x)%Z; [|lia]. apply lt_IZR. lra.
    + assert (rnd x < 2147483647)%Z; [|lia]. apply lt_IZR. lra.
  - apply Rnot_lt_le in N. pose proof (rnd_pos x N) as [A B]. split.
    + assert (-2147483648 < rnd x)%Z; [|lia]. apply lt_IZR. lra.
    + assert (rnd x < 2147483648)%Z; [|lia]. apply lt_IZR. lra.
Qed.
Lemma nint_div_ok x d : 0 < d -> - big <= x / d <= big -> nint_div x d = Ok (rnd (x / d)).
Proof.
  intros Hd Hx. unfold nint_div. destruct (Req_EM_T d 0); [lra|]. apply to_int_ok, rnd_int, Hx.
Qed.
Lemma div_bounds x d y : 0 < d -> x <= y -> x / d <= y / d.
Proof. intros. unfold Rdiv. apply Rmult_le_compat_r; auto. apply Rlt_le, Rinv_0_lt_compat; auto. Qed.
Lemma div_nonneg x d : 0 < d -> 0 <= x -> 0 <= x / d.
Proof. intros. unfold Rdiv. apply Rmult_le_pos; auto. apply Rlt_le, Rinv_0_lt_compat; auto. Qed.

(** ** loops over indices *)
Lemma zloop_in a b g : In g (zloop a b) <-> (a <= g <= b)%Z.
Proof.
  unfold zloop. rewrite in_map_iff. split.
  - intros (k & <- & Hk). apply in_seq in Hk. lia.
  - intros H. exists (Z.to_nat (g - a)). split. lia. apply in_seq. lia.
Qed.
Lemma zloop_nodup a b : NoDup (zloop a b).
Proof.
  unfold zloop. apply FinFun.Injective_map_NoDup. intros x y H. lia. apply seq_NoDup.
Qed.

Lemma upd_length A n (x : A) l : length (upd n x l) = length l.
Proof. revert n. induction l; destruct n; simpl; auto. Qed.
Lemma upd_nth A n (x d : A) l k : (n < length l)%nat -> nth k (upd n x l) d = if (k =? n)%nat then x else nth k l d.
Proof.
  revert n k. induction l; simpl; intros n k H. lia. destruct n, k; simpl; auto. apply IHl. lia.
Qed.
Lemma rdz_ok (l : list num) g : (0 <= g < Z.of_nat (length l))%Z -> rdz l g = Ok (el l g).
Proof.
  intros H. unfold rdz, rd, el. destruct (Z.ltb_spec g 0); [lia|].
  rewrite (nth_error_nth' l None) by lia. reflexivity.
Qed.
Lemma wrz_ok (l : list num) g x : (0 <= g < Z.of_nat (length l))%Z ->
  exists l', wrz l g x = Ok l' /\ length l' = length l /\ forall k, (0 <= k)%Z -> el l' k = if (k =? g)%Z then x else el l k.
Proof.
  intros H. unfold wrz, wr. destruct (Z.ltb_spec g 0); [lia|].
  destruct (Nat.ltb_spec (Z.to_nat g) (length l)); [|lia].
  eexists. split. reflexivity. rewrite upd_length. split; auto. intros k Hk. unfold el. rewrite upd_nth by lia.
  destruct (Z.eqb_spec k g), (Nat.eqb_spec (Z.to_nat k) (Z.to_nat g)); auto; try lia.
Qed.

(** adding h g to every element g of a set of indices *)
Lemma bump_ok (h : Z -> num) idx : forall l, NoDup idx -> (forall g, In g idx -> (0 <= g < Z.of_nat (length l))%Z) ->
  exists l', ofold (fun l g => obind (rdz l g) (fun old => wrz l g (nadd old (h g)))) idx l = Ok l' /\ length l' = length l /\
  forall g, (0 <= g)%Z -> (In g idx -> el l' g = nadd (el l g) (h g)) /\ (~ In g idx -> el l' g = el l g).
Proof.
  induction idx as [|a idx IH]; intros l ND B.
  - exists l. simpl. repeat split; auto. intros [].
  - inversion ND; subst. simpl. rewrite rdz_ok by (apply B; left; auto). simpl.
    destruct (wrz_ok l a (nadd (el l a) (h a)) (B a (or_introl eq_refl))) as (l1 & E & L & X). rewrite E. simpl.
    destruct (IH l1 H2) as (l2 & E2 & L2 & X2). { intros g Hg. rewrite L. apply B. right; auto. }
    exists l2. rewrite E2. split; auto. split. congruence. intros g Hg. destruct (X2 g Hg) as [Y1 Y2]. split.
    + intros [<-|Hi]. rewrite Y2 by auto. rewrite X by auto. rewrite Z.eqb_refl. auto.
      rewrite Y1 by auto. rewrite X by auto. destruct (Z.eqb_spec g a); auto. subst. contradiction.
    + intros Hn. rewrite Y2. rewrite X by auto. destruct (Z.eqb_spec g a); auto. subst. exfalso. apply Hn. left; auto. intros H'. apply Hn. right; auto.
Qed.

(** ** the range *)
Section Range.
Variable d : cdata.
Hypothesis G : good_grid d.

Lemma deltar_pos : 0 < cd_deltar d. Proof. apply G. Qed.
Lemma calc_order : cd_rmin d <= calc_lo d <= cd_rfmin d /\ cd_rfmax d <= calc_hi d.
Proof.
  destruct G as (D & _ & [R1 R2] & _). unfold calc_lo, calc_hi. destruct (Rlt_dec 0 (cd_qmax d)) as [Q|Q]; [|lra].
  assert (0 < 12 * PI / cd_qmax d). { apply Rdiv_lt_0_compat; auto. pose proof PI_RGT_0. lra. }
  pose proof (Rmax_l (cd_rmin d) (cd_rfmin d - 12 * PI / cd_qmax d)).
  split; [split; [auto|]|lra]. apply Rmax_lub; lra.
Qed.
Lemma quot_bounds r : 0 <= r <= calc_hi d + 1 -> - big <= (r - cd_rmin d) / cd_deltar d <= big.
Proof.
  intros H. pose proof calc_order as (C1 & C2). destruct G as (D & P & Q & B).
  assert ((r - cd_rmin d) / cd_deltar d <= (calc_hi d + 1) / cd_deltar d) by (apply div_bounds; lra).
  assert (- (calc_hi d + 1) / cd_deltar d <= (r - cd_rmin d) / cd_deltar d) by (apply div_bounds; lra).
  unfold big. unfold Rdiv in *. lra.
Qed.
Lemma nint_grid r : 0 <= r <= calc_hi d + 1 -> nint_div (r - cd_rmin d) (cd_deltar d) = Ok (rnd ((r - cd_rmin d) / cd_deltar d)).
Proof. intros H. apply nint_div_ok. apply G. apply (quot_bounds r H). Qed.

Definition idx (r : R) : Z := rnd ((r - cd_rmin d) / cd_deltar d).
Lemma idx_nearest r : cd_rmin d <= r -> nearest d r (idx r).
Proof.
  intros H. pose proof deltar_pos. unfold nearest, grid, idx.
  assert (H1 : 0 <= (r - cd_rmin d) / cd_deltar d) by (apply div_nonneg; lra). pose proof (rnd_pos _ H1) as [A B].
  assert (E : r = cd_rmin d + (r - cd_rmin d) / cd_deltar d * cd_deltar d) by (field; lra).
  set (q := (r - cd_rmin d) / cd_deltar d) in *. clearbody q. rewrite E. nra.
Qed.
Lemma idx_mono r s : r <= s -> (idx r <= idx s)%Z.
Proof. intros H. apply rnd_mono, div_bounds; [apply G|lra]. Qed.
Lemma idx_nonneg r : cd_rmin d <= r -> (0 <= idx r)%Z.
Proof. intros H. apply rnd_nonneg, div_nonneg; [apply G|lra]. Qed.
Lemma idx_le r g : cd_rmin d <= r -> ((idx r <= g)%Z <-> r < grid d g + cd_deltar d / 2).
Proof.
  intros H. pose proof deltar_pos. unfold idx. rewrite rnd_le by (apply div_nonneg; lra). unfold grid.
  assert (E : r = cd_rmin d + (r - cd_rmin d) / cd_deltar d * cd_deltar d) by (field; lra).
  set (q := (r - cd_rmin d) / cd_deltar d) in *. clearbody q. rewrite E. split; intros; nra.
Qed.
Lemma idx_ge r g : (0 <= g)%Z -> ((g <= idx r)%Z <-> grid d g - cd_deltar d / 2 <= r /\ cd_rmin d - cd_deltar d / 2 < r).
Proof.
  intros H. pose proof deltar_pos. unfold idx. rewrite rnd_ge by auto. unfold grid.
  assert (E : r = cd_rmin d + (r - cd_rmin d) / cd_deltar d * cd_deltar d) by (field; lra).
  set (q := (r - cd_rmin d) / cd_deltar d) in *. clearbody q. rewrite E. split; intros [? ?]; split; nra.
Qed.

Lemma calc_range_ok : calc_range d = Ok (calc_lo d, calc_hi d, idx (calc_lo d), idx (calc_hi d)).
Proof.
  pose proof calc_order as (C1 & C2). destruct G as (D & P & [R1 R2] & B).
  unfold calc_range. rewrite !nint_grid by lra. simpl.
  unfold calc_lo, calc_hi. destruct (Rlt_dec 0 (cd_qmax d)) as [Q|Q]; [|reflexivity].
  unfold calc_lo, calc_hi in C1, C2. destruct (Rlt_dec 0 (cd_qmax d)); [|contradiction].
  replace (6 * 2 * PI / cd_qmax d) with (12 * PI / cd_qmax d) by (field; lra).
  assert (X : calc_hi d = cd_rfmax d + 12 * PI / cd_qmax d) by (unfold calc_hi; destruct (Rlt_dec 0 (cd_qmax d)); [auto|contradiction]).
  rewrite !nint_grid by (rewrite ?X; lra). reflexivity.
Qed.
End Range.
