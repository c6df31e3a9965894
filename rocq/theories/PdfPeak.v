(** Peaks: where they are, how wide and how high, and which points they change. *)
From Coq Require Import List Arith ZArith Reals Bool Lia Lra.
From Verif Require Import Base RSum MathModel MetricModel MetricSpec MetricProof SphereModel SphereSpec SphereProof PdfModel PdfSpec PdfProof PdfGeo PdfSum.
Import ListNotations.
Local Open Scope R_scope.

Lemma nadd_zero x : nadd x (Some 0) = x.
Proof. destruct x; simpl; auto. f_equal. lra. Qed.
Lemma nadd_assoc x a b : nadd (nadd x (Some a)) (Some b) = nadd x (Some (a + b)).
Proof. destruct x; simpl; auto. f_equal. lra. Qed.

Lemma gauss_ok s x : 0 < s -> gauss (Some s) x = Some (normal s x).
Proof.
  intros S. assert (P : 0 < sqrt (2 * PI)) by (apply sqrt_lt_R0; pose proof PI_RGT_0; lra).
  unfold gauss, normal. cbn [nmul]. unfold ndiv. destruct (Req_EM_T (sqrt (2 * PI) * s) 0) as [Z|Z].
  { apply Rmult_integral in Z. lra. }
  destruct (Req_EM_T s 0); [lra|]. cbn [nmul]. f_equal. f_equal. field; split; lra.
  f_equal. unfold m_sqr. field. lra.
Qed.

(** ** distances looked at *)
Lemma limits_ok lo hi r : 0 <= hi -> 0 <= r -> let (rmin2, rmax2) := dist_limits lo hi in
  (~ r * r < rmin2 /\ ~ rmax2 < r * r) <-> (1 / 10 <= r /\ lo - 1 <= r <= hi + 1).
Proof.
  intros H0 R0. unfold dist_limits, m_sqr. set (m2 := (lo - 1) * (lo - 1) * (if Rlt_dec (lo - 1) 0 then -1 else 1)).
  assert (M : ~ r * r < m2 <-> lo - 1 <= r).
  { unfold m2. destruct (Rlt_dec (lo - 1) 0). split; intros; nra. split; intros; nra. }
  assert (X : ~ (hi + 1) * (hi + 1) < r * r <-> r <= hi + 1) by (split; intros; nra).
  assert (T : ~ r * r < 1 / 100 <-> 1 / 10 <= r) by (split; intros; nra).
  assert (K : ~ r * r < Rmax (1 / 100) m2 <-> ~ r * r < 1 / 100 /\ ~ r * r < m2).
  { unfold Rmax. destruct (Rle_dec (1 / 100) m2); split; intros; try split; lra. }
  rewrite K, X, M, T. tauto.
Qed.
Lemma limits_sqrt lo hi : 0 <= hi -> let (rmin2, rmax2) := dist_limits lo hi in
  sqrt rmin2 = Rmax (1 / 10) (lo - 1) /\ sqrt rmax2 = hi + 1.
Proof.
  intros H. unfold dist_limits, m_sqr. split; [|rewrite sqrt_square; lra].
  destruct (Rlt_dec (lo - 1) 0).
  - rewrite Rmax_left by nra. rewrite Rmax_left by lra. replace (1 / 100) with (1 / 10 * (1 / 10)) by lra. apply sqrt_square. lra.
  - rewrite Rmult_1_r. destruct (Rle_dec (1 / 10) (lo - 1)).
    + rewrite !Rmax_right by nra. apply sqrt_square. lra.
    + rewrite !Rmax_left by nra. replace (1 / 100) with (1 / 10 * (1 / 10)) by lra. apply sqrt_square. lra.
Qed.

(** ** one peak *)
Section Peak.
Variable d : cdata.
Hypothesis G : good_grid d.
Let N := Z.to_nat (idx d (calc_hi d) + 1).

Lemma calc_hi_nn : 0 <= calc_lo d /\ 0 <= calc_hi d.
Proof. destruct (calc_order d G). destruct G as (_ & ? & [? ?] & _). lra. Qed.
Lemma ncmax_nn : (0 <= idx d (calc_lo d) <= idx d (calc_hi d))%Z.
Proof.
  destruct (calc_order d G) as [[? ?] ?]. destruct G as (_ & ? & [? ?] & _). split. apply idx_nonneg; auto. apply idx_mono; auto. lra.
Qed.
Lemma N_len : Z.of_nat N = (idx d (calc_hi d) + 1)%Z.
Proof. unfold N. pose proof ncmax_nn. lia. Qed.

(** the limits of the loop over points *)
Definition pk_lo (s : num) (r : R) : R := match s with Some s => Rmax (calc_lo d) (r - 5 * s) | None => calc_lo d end.
Definition pk_hi (s : num) (stepcut r : R) : R :=
  let re := match s with Some s => Rmin (calc_hi d) (r + 5 * s) | None => calc_hi d end in
  if Rlt_dec 0 stepcut then Rmin re stepcut else re.
Definition num_nn (s : num) : Prop := match s with Some s => 0 <= s | None => True end.

Lemma pk_bounds s stepcut r : num_nn s -> 0 <= r <= calc_hi d + 1 ->
  calc_lo d <= pk_lo s r <= calc_hi d + 1 /\ 0 <= pk_hi s stepcut r <= calc_hi d.
Proof.
  intros S R1. destruct calc_hi_nn. destruct (calc_order d G) as [[? ?] ?]. destruct G as (_ & ? & [? ?] & _).
  unfold pk_lo, pk_hi, Rmax, Rmin. destruct s as [s|]; simpl in S; repeat destruct (Rle_dec _ _); repeat destruct (Rlt_dec _ _); repeat destruct (Rle_dec _ _); lra.
Qed.

(** any peak: only points of the calculated range are touched *)
Lemma add_peak_touch ppp k stepcut : length ppp = N -> num_nn (pk_sigma k) -> 0 <= pk_dist k <= calc_hi d + 1 ->
  exists ppp', add_peak d (calc_lo d) (calc_hi d) stepcut ppp k = Ok ppp' /\ length ppp' = N /\
  forall g, (0 <= g)%Z ->
    ((idx d (pk_lo (pk_sigma k) (pk_dist k)) <= g <= idx d (pk_hi (pk_sigma k) stepcut (pk_dist k)))%Z ->
       (idx d (calc_lo d) <= g <= idx d (calc_hi d))%Z /\
       el ppp' g = nadd (el ppp g) (nmul (pk_ampl k) (gauss (pk_sigma k) (grid d g - pk_dist k)))) /\
    (~ (idx d (pk_lo (pk_sigma k) (pk_dist k)) <= g <= idx d (pk_hi (pk_sigma k) stepcut (pk_dist k)))%Z -> el ppp' g = el ppp g).
Proof.
  intros L S R1. destruct (pk_bounds (pk_sigma k) stepcut (pk_dist k) S R1) as [B1 B2].
  unfold add_peak. fold (pk_lo (pk_sigma k) (pk_dist k)). fold (pk_hi (pk_sigma k) stepcut (pk_dist k)).
  destruct calc_hi_nn.
  rewrite (nint_grid d G (pk_lo _ _)) by lra. rewrite (nint_grid d G (pk_hi _ _ _)) by lra. cbn [obind].
  fold (idx d (pk_lo (pk_sigma k) (pk_dist k))). fold (idx d (pk_hi (pk_sigma k) stepcut (pk_dist k))).
  set (a := idx d (pk_lo _ _)). set (b := idx d (pk_hi _ _ _)).
  assert (A1 : (idx d (calc_lo d) <= a)%Z) by (apply idx_mono; auto; lra).
  assert (B3 : (b <= idx d (calc_hi d))%Z) by (apply idx_mono; auto; lra).
  pose proof ncmax_nn. pose proof N_len.
  destruct (bump_ok (fun g => nmul (pk_ampl k) (gauss (pk_sigma k) (cd_rmin d + IZR g * cd_deltar d - pk_dist k))) (zloop a b) ppp (zloop_nodup a b)) as (ppp' & E & L' & X).
  { intros g Hg. apply zloop_in in Hg. rewrite L, H2. lia. }
  exists ppp'. split; [exact E|]. split; [congruence|]. intros g Hg. destruct (X g Hg) as [X1 X2]. split.
  - intros I. split. lia. apply X1, zloop_in, I.
  - intros I. apply X2. intros J. apply I, zloop_in, J.
Qed.

Lemma reaches_idx p r s g : 0 < s -> 0 <= r <= calc_hi d + 1 -> (0 <= g)%Z ->
  (reaches d p r s g <-> (idx d (pk_lo (Some s) r) <= g <= idx d (pk_hi (Some s) (cp_stepcut p) r))%Z).
Proof.
  intros S R1 Hg. destruct (pk_bounds (Some s) (cp_stepcut p) r) as [B1 B2]. simpl; lra. lra.
  destruct (calc_order d G) as [[? ?] ?].
  rewrite idx_le by (auto; lra). rewrite idx_ge by auto. reflexivity.
Qed.
Lemma reaches_dec p r s g : {reaches d p r s g} + {~ reaches d p r s g}.
Proof.
  unfold reaches. cbv zeta. 
  destruct (Rlt_dec (Rmax (calc_lo d) (r - 5 * s)) (grid d g + cd_deltar d / 2)); [|right; intros (? & _); auto].
  match goal with |- {_ /\ ?a <= ?b /\ ?c < _} + {_} => destruct (Rle_dec a b); [|right; intros (_ & ? & _); auto]; destruct (Rlt_dec c b); [|right; intros (_ & _ & ?); auto] end.
  left. auto.
Qed.
Lemma add_peak_ok ppp p r s a : length ppp = N -> 0 < s -> 0 <= r <= calc_hi d + 1 ->
  exists ppp', add_peak d (calc_lo d) (calc_hi d) (cp_stepcut p) ppp (mkPeak r (Some s) (Some a)) = Ok ppp' /\ length ppp' = N /\
  forall g, (0 <= g)%Z -> el ppp' g = nadd (el ppp g) (Some (if reaches_dec p r s g then a * normal s (grid d g - r) else 0)).
Proof.
  intros L S R1. destruct (add_peak_touch ppp (mkPeak r (Some s) (Some a)) (cp_stepcut p) L) as (ppp' & E & L' & X). simpl; lra. exact R1.
  exists ppp'. split; auto. split; auto. intros g Hg. destruct (X g Hg) as [X1 X2]. cbn [pk_sigma pk_dist pk_ampl] in *.
  destruct (reaches_dec p r s g) as [D|D].
  - rewrite reaches_idx in D by auto. destruct (X1 D) as [_ ->]. rewrite gauss_ok by auto. reflexivity.
  - rewrite reaches_idx in D by auto. rewrite (X2 D). rewrite nadd_zero. reflexivity.
Qed.

(** ** a loop of additions *)
Lemma add_loop A (step : list num -> A -> outcome (list num)) (f : A -> Z -> R) (l : list A) : forall ppp,
  length ppp = N ->
  (forall a q, In a l -> length q = N -> exists q', step q a = Ok q' /\ length q' = N /\ forall g, (0 <= g)%Z -> el q' g = nadd (el q g) (Some (f a g))) ->
  exists q', ofold step l ppp = Ok q' /\ length q' = N /\ forall g, (0 <= g)%Z -> el q' g = nadd (el ppp g) (Some (lsum (fun a => f a g) l)).
Proof.
  induction l as [|a l IH]; intros ppp L H.
  - exists ppp. split; auto. split; auto. intros. rewrite lsum_nil, nadd_zero. auto.
  - destruct (H a ppp (or_introl eq_refl) L) as (q & E & Lq & X). cbn [ofold]. rewrite E. cbn [obind].
    destruct (IH q Lq) as (q' & E' & L' & X'). { intros. apply H; auto. right; auto. }
    exists q'. split; auto. split; auto. intros g Hg. rewrite X', X, nadd_assoc by auto. reflexivity.
Qed.
End Peak.

(** ** one pair *)
Section Pair.
Variables (d : cdata) (p : cphase) (de : cderived).
Hypothesis G : good_grid d.
Hypothesis LAT : phase_lattice p = Ok de.
Hypothesis SP : sane_phase d p.

Lemma sp_cell : proper_cell (cp_a0 p 0%nat) (cp_a0 p 1%nat) (cp_a0 p 2%nat) (cp_win p 0%nat) (cp_win p 1%nat) (cp_win p 2%nat). Proof. apply SP. Qed.
Lemma sp_tiny : no_tiny (metric (cp_a0 p) (cp_win p)). Proof. apply SP. Qed.

Definition dd (ai aj : catom) (t : Z * Z * Z) : v3 :=
  let '(m, n, o) := t in let T i : R := IZR (match i with O => m | S O => n | _ => o end) in
  fun i => at_pos ai i - at_pos aj i - T i * IZR (cp_icc p i).
Lemma dd_sep ai aj t i : (i < 3)%nat -> dd ai aj t i = sep p ai aj t i.
Proof. destruct t as [[m n] o]. intros. destruct i as [|[|[|i]]]; try lia; cbn; ring. Qed.
Lemma dd_dot ai aj t : skalpro (l_gten (de_lat de)) (dd ai aj t) (dd ai aj t) = length_of p (sep p ai aj t) * length_of p (sep p ai aj t).
Proof.
  rewrite (gten_dot p de LAT sp_cell sp_tiny), (length_sq p de LAT sp_cell sp_tiny). unfold dot33. rewrite !dd_sep by lia. reflexivity.
Qed.

Lemma in_reach_dec r : {in_reach d r} + {~ in_reach d r}.
Proof.
  unfold in_reach. destruct (Rle_dec (1 / 10) r); [|right; tauto]. destruct (Rle_dec (calc_lo d - 1) r); [|right; tauto]. destruct (Rle_dec r (calc_hi d + 1)); [left|right]; tauto.
Qed.
Definition has_peak (ai aj : catom) (t : Z * Z * Z) : Prop :=
  0 < msd p ai aj (sep p ai aj t) /\ 0 < width_factor d p (length_of p (sep p ai aj t)).
Lemma has_peak_dec ai aj t : {has_peak ai aj t} + {~ has_peak ai aj t}.
Proof. unfold has_peak. destruct (Rlt_dec 0 (msd p ai aj (sep p ai aj t))); [|right; tauto]. destruct (Rlt_dec 0 (width_factor d p (length_of p (sep p ai aj t)))); [left|right]; tauto. Qed.

Lemma width_pos ai aj t : has_peak ai aj t -> 0 < width d p ai aj (sep p ai aj t).
Proof.
  intros [H1 H2]. unfold width. assert (0 < cp_sratio p) by apply SP.
  assert (0 < sqrt (msd p ai aj (sep p ai aj t)) * sqrt (width_factor d p (length_of p (sep p ai aj t)))) by (apply Rmult_lt_0_compat; apply sqrt_lt_R0; auto).
  apply Rmult_lt_0_compat; auto. destruct (Rlt_dec _ _); lra.
Qed.

Lemma pair_peak_ok ai aj t wi wj b : 0 <= msd p ai aj (sep p ai aj t) -> let (rmin2, rmax2) := dist_limits (calc_lo d) (calc_hi d) in
  pair_peak (cd_qbroad d) rmin2 rmax2 p (de_lat de) (Some wi) (Some wj) ai aj b t =
  if in_reach_dec (length_of p (sep p ai aj t)) then
    if has_peak_dec ai aj t then
      Some (mkPeak (length_of p (sep p ai aj t)) (Some (width d p ai aj (sep p ai aj t)))
             (Some ((if b then 2 else 1) * (at_occ ai * wi * (at_occ aj * wj)))))
    else None
  else None.
Proof.
  intros M. set (r := length_of p (sep p ai aj t)) in *. assert (R0 : 0 <= r) by apply length_nn.
  pose proof (limits_ok (calc_lo d) (calc_hi d) r (proj2 (calc_hi_nn d G)) R0) as LIM.
  destruct (dist_limits (calc_lo d) (calc_hi d)) as [rmin2 rmax2].
  unfold pair_peak. destruct t as [[m n] o].
  change (fun i => at_pos ai i - at_pos aj i - IZR match i with O => m | S O => n | _ => o end * IZR (cp_icc p i)) with (dd ai aj (m, n, o)).
  rewrite dd_dot. fold r. destruct (in_reach_dec r) as [I|I].
  2:{ destruct (Rlt_dec (r * r) rmin2); auto. destruct (Rlt_dec rmax2 (r * r)); auto. exfalso. apply I. unfold in_reach. tauto. }
  destruct (Rlt_dec (r * r) rmin2); [exfalso; unfold in_reach in I; tauto|]. destruct (Rlt_dec rmax2 (r * r)); [exfalso; unfold in_reach in I; tauto|].
  assert (RP : 0 < r) by (destruct I; lra).
  rewrite sqrt_square by auto.
  assert (ME : msd_atoms (de_lat de) ai aj (dd ai aj (m, n, o)) = msd p ai aj (sep p ai aj (m, n, o))).
  { rewrite (msd_ok p de LAT sp_cell sp_tiny).
    - apply msd_ext. intros. apply dd_sep; auto.
    - replace (length_of p (dd ai aj (m, n, o))) with r; auto. symmetry. apply (nrm_ext (metric (cp_a0 p) (cp_win p))). intros. apply dd_sep; auto. }
  rewrite ME. unfold nsqrt. destruct (Rlt_dec _ 0) as [Q|Q]; [lra|]. clear Q.
  set (U := msd p ai aj (sep p ai aj (m, n, o))) in *.
  replace (1 - cp_delta2 p / (r * r) - cp_delta1 p / r + m_sqr (cd_qbroad d) * (r * r)) with (width_factor d p r) by reflexivity.
  assert (HP : has_peak ai aj (m, n, o) <-> 0 < U /\ 0 < width_factor d p r) by reflexivity.
  destruct (Rle_dec (sqrt U) 0) as [Q|Q].
  - destruct (has_peak_dec ai aj (m, n, o)) as [H|H]; auto. apply HP in H. destruct H as [H _]. apply sqrt_lt_R0 in H. fold U in H. exfalso. lra.
  - assert (UP : 0 < U). { destruct (Rlt_dec 0 U); auto. assert (Z : U = 0) by lra. rewrite Z, sqrt_0 in Q. lra. }
    destruct (Rle_dec (width_factor d p r) 0); destruct (has_peak_dec ai aj (m, n, o)) as [H|H]; auto.
    + exfalso. apply HP in H. destruct H as [_ H]. fold r in H. lra.
    + cbn [nmul]. f_equal. unfold width. fold r U. f_equal.
      * destruct (Rlt_dec r (cp_rcut p)); cbn [nmul]; f_equal; ring.
      * destruct b; cbn [nadd]; f_equal; ring.
    + exfalso. apply H, HP. lra.
Qed.

Lemma contributes_split ai aj t g : contributes d p ai aj t g <-> has_peak ai aj t /\ reaches d p (length_of p (sep p ai aj t)) (width d p ai aj (sep p ai aj t)) g.
Proof. unfold contributes, has_peak. cbv zeta. tauto. Qed.
Lemma contributes_dec ai aj t g : {contributes d p ai aj t g} + {~ contributes d p ai aj t g}.
Proof.
  destruct (has_peak_dec ai aj t). destruct (reaches_dec d p (length_of p (sep p ai aj t)) (width d p ai aj (sep p ai aj t)) g).
  left. apply contributes_split; auto. right. rewrite contributes_split. tauto. right. rewrite contributes_split. tauto.
Qed.

(** swapping the atoms and reversing the translation *)
Definition rev_t (t : Z * Z * Z) : Z * Z * Z := let '(m, n, o) := t in (- m, - n, - o)%Z.
Lemma sep_rev ai aj t i : (i < 3)%nat -> sep p aj ai (rev_t t) i = - sep p ai aj t i.
Proof. destruct t as [[m n] o]. intros. destruct i as [|[|[|i]]]; try lia; cbn; rewrite !opp_IZR; ring. Qed.
Lemma len_rev ai aj t : length_of p (sep p aj ai (rev_t t)) = length_of p (sep p ai aj t).
Proof. apply (nrm_opp (metric (cp_a0 p) (cp_win p))). intros. apply sep_rev; auto. Qed.
Lemma msd_rev ai aj t : msd p aj ai (sep p aj ai (rev_t t)) = msd p ai aj (sep p ai aj t).
Proof. apply msd_opp. intros. apply sep_rev; auto. Qed.
Lemma width_rev ai aj t : width d p aj ai (sep p aj ai (rev_t t)) = width d p ai aj (sep p ai aj t).
Proof. unfold width. rewrite msd_rev, len_rev. reflexivity. Qed.
Lemma contributes_rev ai aj t g : contributes d p aj ai (rev_t t) g <-> contributes d p ai aj t g.
Proof. unfold contributes. cbv zeta. rewrite msd_rev, len_rev, width_rev. reflexivity. Qed.
Lemma height_rev ai aj t g : pair_height d p aj ai (rev_t t) g = pair_height d p ai aj t g.
Proof. unfold pair_height. cbv zeta. rewrite len_rev, width_rev. reflexivity. Qed.
Lemma rev_rev t : rev_t (rev_t t) = t.
Proof. destruct t as [[m n] o]. simpl. rewrite !Z.opp_involutive. reflexivity. Qed.
End Pair.
