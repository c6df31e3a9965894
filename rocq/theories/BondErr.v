(** Standard deviations of bond lengths and angles. *)
From Coq Require Import Ascii String List Arith ZArith Reals Bool Lia Lra Sorted.
From Verif Require Import Base MathModel MathProof MetricModel MetricSpec MetricProof SphereModel SphereSpec PdfModel PdfSpec PdfGeo PdfFinal ParserModel ParserDeriv DerivCalc BondModel BondSpec BondProof BondNear BondAngle.
Import ListNotations.
Local Open Scope R_scope.

Lemma dlin a e : derivable_pt_lim (fun s => a + s * e) 0 e.
Proof. eapply dl_eq. apply (dp (fun _ => a) (fun s => s * e)). apply dlim_const. apply dmc. apply did. lra. Qed.
Lemma dcos f x a : derivable_pt_lim f x a -> derivable_pt_lim (fun s => cos (f s)) x (- sin (f x) * a).
Proof. intros H. exact (derivable_pt_lim_comp f cos x a (- sin (f x)) H (derivable_pt_lim_cos (f x))). Qed.
Lemma dacos f x a : -1 < f x < 1 -> derivable_pt_lim f x a -> derivable_pt_lim (fun s => acos (f s)) x (-1 / sqrt (1 - f x * f x) * a).
Proof. intros B H. exact (derivable_pt_lim_comp f acos x a (-1 / sqrt (1 - f x * f x)) H (dl_acos (f x) B)). Qed.

Definition wix (i j : nat) : nat := (if (i + j =? 1)%nat then 2 else if (i + j =? 2)%nat then 1 else 0)%nat.
Definition dmetric (a0 win ea ew : v3) : t33 := fun i j =>
  if (i =? j)%nat then ea i * a0 i + a0 i * ea i
  else (ea i * a0 j + a0 i * ea j) * cell_cos win i j + a0 i * a0 j * (- sin (PI / 180 * win (wix i j)) * (PI / 180 * ew (wix i j))).
Lemma metric_deriv a0 win ea ew i j : derivable_pt_lim (fun s => metric (fun k => a0 k + s * ea k) (fun k => win k + s * ew k) i j) 0 (dmetric a0 win ea ew i j).
Proof.
  unfold metric, dmetric. destruct (i =? j)%nat.
  - eapply dl_eq. apply (dm (fun s => a0 i + s * ea i) (fun s => a0 i + s * ea i)); apply dlin. lra.
  - unfold cell_cos. fold (wix i j). eapply dl_eq.
    + apply (dm (fun s => (a0 i + s * ea i) * (a0 j + s * ea j)) (fun s => cos (PI / 180 * (win (wix i j) + s * ew (wix i j))))).
      apply (dm (fun s => a0 i + s * ea i) (fun s => a0 j + s * ea j)); apply dlin.
      apply (dcos (fun s => PI / 180 * (win (wix i j) + s * ew (wix i j)))). apply dcm. apply dlin.
    + cbv beta. rewrite !Rmult_0_l, !Rplus_0_r. ring.
Qed.

(** derivative of a scalar product *)
Definition ddot (g dg : t33) (h k dh dk : v3) : R :=
  dot33 g dh k + dot33 g h dk + dot33 dg h k.
Lemma dot_deriv (G : R -> t33) (H K : R -> v3) dg dh dk :
  (forall i j, (i < 3)%nat -> (j < 3)%nat -> derivable_pt_lim (fun s => G s i j) 0 (dg i j)) ->
  (forall i, (i < 3)%nat -> derivable_pt_lim (fun s => H s i) 0 (dh i)) -> (forall i, (i < 3)%nat -> derivable_pt_lim (fun s => K s i) 0 (dk i)) ->
  derivable_pt_lim (fun s => dot33 (G s) (H s) (K s)) 0 (ddot (G 0) dg (H 0) (K 0) dh dk).
Proof.
  intros DG DH DK. assert (T : forall i j, (i < 3)%nat -> (j < 3)%nat -> derivable_pt_lim (fun s => H s i * K s j * G s i j) 0 ((dh i * K 0 j + H 0 i * dk j) * G 0 i j + H 0 i * K 0 j * dg i j)).
  { intros i j I J. apply (dm (fun s => H s i * K s j) (fun s => G s i j)); auto. apply (dm (fun s => H s i) (fun s => K s j)); auto. }
  unfold dot33. eapply dl_eq. repeat (first [apply (T 2%nat 2%nat); lia | eapply dp]); try (apply T; lia). unfold ddot, dot33. ring.
Qed.
Lemma ddot_bound g dg h k dh dk eg eh ek :
  (forall i j, (i < 3)%nat -> (j < 3)%nat -> Rabs (eg i j) <= dg i j) -> (forall i, (i < 3)%nat -> Rabs (eh i) <= dh i) -> (forall i, (i < 3)%nat -> Rabs (ek i) <= dk i) ->
  Rabs (ddot g eg h k eh ek) <= dskalpro g dg h k dh dk.
Proof.
  intros EG EH EK.
  set (T := fun i j => eh i * k j * g i j + h i * ek j * g i j + h i * k j * eg i j).
  set (B := fun i j => Rabs (dh i * k j * g i j) + Rabs (h i * dk j * g i j) + Rabs (h i * k j * dg i j)).
  assert (TB : forall i j, (i < 3)%nat -> (j < 3)%nat -> Rabs (T i j) <= B i j).
  { intros i j I J. unfold T, B. eapply Rle_trans. apply Rabs_triang. apply Rplus_le_compat. eapply Rle_trans. apply Rabs_triang. apply Rplus_le_compat.
    - rewrite !Rabs_mult. apply Rmult_le_compat_r. apply Rabs_pos. apply Rmult_le_compat_r. apply Rabs_pos. eapply Rle_trans. apply EH; auto. apply Rle_abs.
    - rewrite !Rabs_mult. apply Rmult_le_compat_r. apply Rabs_pos. apply Rmult_le_compat_l. apply Rabs_pos. eapply Rle_trans. apply EK; auto. apply Rle_abs.
    - rewrite !Rabs_mult. apply Rmult_le_compat_l. apply Rmult_le_pos; apply Rabs_pos. eapply Rle_trans. apply EG; auto. apply Rle_abs. }
  assert (E : ddot g eg h k eh ek = T 0%nat 0%nat + T 0%nat 1%nat + T 0%nat 2%nat + T 1%nat 0%nat + T 1%nat 1%nat + T 1%nat 2%nat + T 2%nat 0%nat + T 2%nat 1%nat + T 2%nat 2%nat).
  { unfold ddot, dot33, T. ring. }
  assert (F : dskalpro g dg h k dh dk = B 0%nat 0%nat + B 0%nat 1%nat + B 0%nat 2%nat + B 1%nat 0%nat + B 1%nat 1%nat + B 1%nat 2%nat + B 2%nat 0%nat + B 2%nat 1%nat + B 2%nat 2%nat).
  { unfold dskalpro, B. cbn [fold_left idx3]. ring. }
  rewrite E, F. clearbody T B. repeat (eapply Rle_trans; [apply Rabs_triang|apply Rplus_le_compat]); apply TB; lia.
Qed.

Section Err.
Variables (b : bphase) (da dw : v3).
Let p := bp_ph b.
Hypothesis FR : fresh b.
Hypothesis GC : good_cell p.
Hypothesis FE : fresh_err b da dw.
Hypothesis NO : no_obtuse p.
Hypothesis NTE : no_tiny_err p da dw.

Lemma wix_is i j : (i < 3)%nat -> (j < 3)%nat -> i <> j -> wix i j = (3 - (i + j))%nat.
Proof. intros I J N. destruct i as [|[|[|i]]], j as [|[|[|j]]]; try lia; reflexivity. Qed.
Lemma win_ok k : (k < 3)%nat -> 0 < cp_win p k <= 90.
Proof.
  intros K. pose proof (NO k K). destruct GC as ((_ & _ & _ & A & B & C & _) & _). destruct k as [|[|[|k]]]; try lia; lra.
Qed.
Lemma cs_nn k : (k < 3)%nat -> 0 <= cos (PI / 180 * cp_win p k) /\ 0 <= sin (PI / 180 * cp_win p k).
Proof.
  intros K. pose proof (win_ok k K) as W. pose proof PI_RGT_0. split.
  - apply cos_ge_0. assert (0 < PI / 180 * cp_win p k). { apply Rmult_lt_0_compat; lra. } lra.
    replace (PI / 2) with (PI / 180 * 90) by field. apply Rmult_le_compat_l; lra.
  - apply sin_ge_0. apply Rmult_le_pos; lra. replace PI with (PI / 180 * 180) at 2 by field. apply Rmult_le_compat_l; lra.
Qed.
Lemma edge_p k : (k < 3)%nat -> 0 < cp_a0 p k.
Proof. destruct GC as ((A & B & C & _) & _). intros K. destruct k as [|[|[|k]]]; try lia; auto. Qed.
Lemma dg_bound ea ew i j : (forall k, (k < 3)%nat -> Rabs (ea k) <= da k /\ Rabs (ew k) <= dw k) -> (i < 3)%nat -> (j < 3)%nat ->
  Rabs (dmetric (cp_a0 p) (cp_win p) ea ew i j) <= bp_dgten b i j.
Proof.
  intros E I J. rewrite FE. fold p. pose proof (edge_p i I) as AI. pose proof (edge_p j J) as AJ. destruct (E i I) as [EI _]. destruct (E j J) as [EJ _].
  unfold dmetric, dtensor. destruct (Nat.eqb_spec i j) as [<-|N].
  - eapply Rle_trans. apply Rabs_triang. rewrite !Rabs_mult, (Rabs_right (cp_a0 p i)) by lra. nra.
  - set (k := (3 - (i + j))%nat). assert (K : (k < 3)%nat) by (unfold k; lia).
    rewrite <- (cell_cosd (cp_win p) i j) by auto. rewrite wix_is by auto. fold k. change (PI / 180 * cp_win p k) with (rad * cp_win p k).
    destruct (cs_nn k K) as [CN SN]. change (cos (PI / 180 * cp_win p k)) with (m_cosd (cp_win p k)) in CN. change (sin (PI / 180 * cp_win p k)) with (m_sind (cp_win p k)) in SN.
    change (sin (rad * cp_win p k)) with (m_sind (cp_win p k)). change (PI / 180 * ew k) with (rad * ew k).
    pose proof rad_pos as RP. destruct (E k K) as [_ EK].
    set (C := m_cosd (cp_win p k)) in *. set (S := m_sind (cp_win p k)) in *.
    assert (X : Rabs ((ea i * cp_a0 p j + cp_a0 p i * ea j) * C + cp_a0 p i * cp_a0 p j * (- S * (rad * ew k))) <= da i * cp_a0 p j * C + cp_a0 p i * da j * C + cp_a0 p i * cp_a0 p j * S * rad * dw k).
    { eapply Rle_trans. apply Rabs_triang. apply Rplus_le_compat.
      - rewrite Rabs_mult, (Rabs_right C) by lra. rewrite <- Rmult_plus_distr_r. apply Rmult_le_compat_r; auto. eapply Rle_trans. apply Rabs_triang.
        rewrite !Rabs_mult, (Rabs_right (cp_a0 p i)), (Rabs_right (cp_a0 p j)) by lra. apply Rplus_le_compat; [apply Rmult_le_compat_r|apply Rmult_le_compat_l]; lra.
      - replace (cp_a0 p i * cp_a0 p j * (- S * (rad * ew k))) with (- (cp_a0 p i * cp_a0 p j * S * rad * ew k)) by ring. rewrite Rabs_Ropp, Rabs_mult.
        assert (Z : 0 <= cp_a0 p i * cp_a0 p j * S * rad). { apply Rmult_le_pos; [|lra]. apply Rmult_le_pos; auto. apply Rmult_le_pos; lra. }
        rewrite (Rabs_right (cp_a0 p i * cp_a0 p j * S * rad)) by lra. apply Rmult_le_compat_l; auto. }
    destruct (Rlt_dec _ _) as [L|L]; auto. pose proof (NTE i j I J N) as T. cbv zeta in T. fold k in T.
    change (cos (PI / 180 * cp_win p k)) with C in T. change (sin (PI / 180 * cp_win p k)) with S in T. fold rad in T.
    assert (TT : da i * cp_a0 p j * C + cp_a0 p i * da j * C + cp_a0 p i * cp_a0 p j * S * rad * dw k = (da i * cp_a0 p j + cp_a0 p i * da j) * C + cp_a0 p i * cp_a0 p j * S * rad * dw k) by ring.
    rewrite TT in *. pose proof (Rabs_pos ((ea i * cp_a0 p j + cp_a0 p i * ea j) * C + cp_a0 p i * cp_a0 p j * (- S * (rad * ew k)))) as NN. rewrite Rabs_right in T by lra. destruct T as [T|T]; lra.
Qed.
Definition part (x : pairT) : v3 := let '(i, j, _) := x in fun k => bp_dpos b i k + bp_dpos b j k.
Definition moves (ep : nat -> v3) (x : pairT) : v3 := let '(i, j, _) := x in fun k => ep i k - ep j k.
Lemma moves_bound ep x k : (forall i k, (k < 3)%nat -> Rabs (ep i k) <= bp_dpos b i k) -> (k < 3)%nat -> Rabs (moves ep x k) <= part x k.
Proof. intros E K. destruct x as [[i j] t]. cbn. unfold Rminus. eapply Rle_trans. apply Rabs_triang. rewrite Rabs_Ropp. apply Rplus_le_compat; auto. Qed.
Lemma sum0 x : forall e, x + 0 * e = x. Proof. intros; ring. Qed.

Lemma dot_at c x y : within b da dw c -> exists l, derivable_pt_lim (fun s => dot33 (metric_at p c s) (joins_at p c x s) (joins_at p c y s)) 0 l /\
  Rabs l <= dskalpro (l_gten (bp_lat b)) (bp_dgten b) (joins p x) (joins p y) (part x) (part y).
Proof.
  destruct c as [[ea ew] ep]. intros [WC WP]. eexists. split.
  - apply (dot_deriv (metric_at p (ea, ew, ep)) (joins_at p (ea, ew, ep) x) (joins_at p (ea, ew, ep) y) (dmetric (cp_a0 p) (cp_win p) ea ew) (moves ep x) (moves ep y)).
    + intros i j _ _. apply metric_deriv.
    + intros k _. destruct x as [[i j] t]. apply dlin.
    + intros k _. destruct y as [[i j] t]. apply dlin.
  - match goal with |- Rabs (ddot ?G ?D ?H ?K ?A ?B) <= _ => assert (Q : ddot G D H K A B = ddot (l_gten (bp_lat b)) D (joins p x) (joins p y) A B) end.
    { assert (G0 : forall i j, (i < 3)%nat -> (j < 3)%nat -> metric_at p (ea, ew, ep) 0 i j = l_gten (bp_lat b) i j).
      { intros i j I J. rewrite (b_el b FR GC) by auto. fold p. unfold metric_at, metric, cell_cos. rewrite !sum0. reflexivity. }
      assert (H0 : forall z k, joins_at p (ea, ew, ep) z 0 k = joins p z k). { intros [[i j] t] k. unfold joins_at. apply sum0. }
      unfold ddot, dot33. rewrite !G0, !H0 by lia. reflexivity. }
    rewrite Q. apply ddot_bound. intros; apply dg_bound; auto. intros; apply moves_bound; auto. intros; apply moves_bound; auto.
Qed.
Lemma dot_zero c x y : dot33 (metric_at p c 0) (joins_at p c x 0) (joins_at p c y 0) = along p (joins p x) (joins p y).
Proof.
  destruct c as [[ea ew] ep]. assert (H0 : forall z k, joins_at p (ea, ew, ep) z 0 k = joins p z k). { intros [[i j] t] k. unfold joins_at. apply sum0. }
  unfold along, dot33. rewrite !H0. unfold metric_at, metric, cell_cos. rewrite !sum0. reflexivity.
Qed.
Lemma apart_zero c x : apart_at p c x 0 = apart p x.
Proof. unfold apart_at. rewrite dot_zero. reflexivity. Qed.
Lemma apart_sq x : 0 < apart p x -> 0 < along p (joins p x) (joins p x).
Proof. intros H. rewrite <- (len_sq b FR GC). fold p. fold (apart p x). apply Rmult_lt_0_compat; auto. Qed.
Lemma apart_deriv c x : within b da dw c -> 0 < apart p x -> exists l, derivable_pt_lim (apart_at p c x) 0 l /\ Rabs l <= ddist_of b (joins p x) (part x).
Proof.
  intros W P. destruct (dot_at c x x W) as (l & D & B). exists (l / (2 * apart p x)). split.
  - eapply dl_eq. apply (dsq (fun s => dot33 (metric_at p c s) (joins_at p c x s) (joins_at p c x s))); [|exact D]. rewrite dot_zero. apply apart_sq; auto. cbv beta. rewrite dot_zero. reflexivity.
  - unfold ddist_of. rewrite (b_dist b FR GC). fold p. fold (apart p x). destruct (Rlt_dec 0 (apart p x)); [|lra].
    unfold Rdiv. rewrite Rabs_mult, (Rabs_right (/ (2 * apart p x))) by (apply Rle_ge, Rlt_le, Rinv_0_lt_compat; lra).
    replace (1 * / 2 * / apart p x * dskalpro (l_gten (bp_lat b)) (bp_dgten b) (joins p x) (joins p x) (part x) (part x)) with (dskalpro (l_gten (bp_lat b)) (bp_dgten b) (joins p x) (joins p x) (part x) (part x) * / (2 * apart p x)) by (field; lra).
    apply Rmult_le_compat_r; auto. apply Rlt_le, Rinv_0_lt_compat; lra.
Qed.
Theorem length_covered x : 0 < apart p x -> covers b da dw (fun c => apart_at p c x) (ddist_of b (joins p x) (part x)).
Proof. intros P c W. apply apart_deriv; auto. Qed.

(** ** angles up to 90 degrees *)
Theorem angle_covered x y : 0 < apart p x -> 0 < apart p y ->
  0 < m_acosd (cos_of b (joins p x) (joins p y)) <= 90 ->
  exists dang, snd (angle_of b (joins p x) (joins p y) (part x) (part y)) = Some dang /\ covers b da dw (fun c => angle_at p c x y) dang /\ forall c, angle_at p c x y 0 = m_acosd (cos_of b (joins p x) (joins p y)).
Proof.
  intros PX PY AN. set (xx := apart p x) in *. set (yy := apart p y) in *. pose proof (Rmult_lt_0_compat _ _ PX PY) as PP.
  set (arg := cos_of b (joins p x) (joins p y)) in *. assert (AE : arg = along p (joins p x) (joins p y) / (xx * yy)) by reflexivity.
  assert (AR : 0 <= arg < 1).
  { pose proof (cos_in b FR GC (joins p x) (joins p y) PX PY) as CI. fold arg in CI. pose proof rad_pos as RP. unfold m_acosd in AN.
    assert (A1 : 0 < acos arg <= PI / 2).
    { destruct AN as [A1 A2]. assert (E : acos arg = acos arg / rad * rad) by (field; lra). split. rewrite E. apply Rmult_lt_0_compat; auto.
      rewrite E. replace (PI / 2) with (90 * rad) by (unfold rad; field). apply Rmult_le_compat_r; lra. }
    pose proof (cos_acos arg CI) as CA. split.
    - rewrite <- CA. apply cos_ge_0; lra.
    - rewrite <- CA. rewrite <- cos_0. apply cos_decreasing_1; try lra; pose proof (acos_bound arg); lra. }
  assert (Z : forall c, dot33 (metric_at p c 0) (joins_at p c x 0) (joins_at p c y 0) / (apart_at p c x 0 * apart_at p c y 0) = arg).
  { intros c. rewrite dot_zero, !apart_zero. reflexivity. }
  assert (S1 : 0 < 1 - arg * arg) by nra. assert (S2 : 0 < sqrt (1 - arg * arg)) by (apply sqrt_lt_R0; auto).
  set (dxy := dskalpro (l_gten (bp_lat b)) (bp_dgten b) (joins p x) (joins p y) (part x) (part y)).
  set (dxx := ddist_of b (joins p x) (part x)). set (dyy := ddist_of b (joins p y) (part y)).
  set (dang := Rabs (1 / sqrt (1 - arg * arg) / rad * (1 / (xx * yy) * dxy + arg / xx * dxx + arg / yy * dyy))).
  assert (DANG : snd (angle_of b (joins p x) (joins p y) (part x) (part y)) = Some dang).
  { unfold angle_of. cbn [snd]. change (nsqrt (skalpro (l_gten (bp_lat b)) (joins p x) (joins p x))) with (dist_of b (joins p x)).
    change (nsqrt (skalpro (l_gten (bp_lat b)) (joins p y) (joins p y))) with (dist_of b (joins p y)). rewrite !(b_dist b FR GC), (b_dot b FR GC). fold p.
    change (length_of p (joins p x)) with xx. change (length_of p (joins p y)) with yy. fold dxy. cbn [nmul ndiv].
    pose proof rad_pos as RP. set (kx := dskalpro _ _ (joins p x) (joins p x) _ _). set (ky := dskalpro _ _ (joins p y) (joins p y) _ _). 
    destruct (Req_EM_T (xx * yy) 0); [lra|]. rewrite <- AE.
    destruct (is_eq arg 1) eqn:Q. { unfold is_eq in Q. destruct (Req_EM_T arg 1); [lra|discriminate]. }
    cbn [nmul nadd nsub nabs ndiv nsqrt']. unfold nsqrt. destruct (Rlt_dec _ 0); [lra|].
    repeat (match goal with |- context [Req_EM_T ?u 0] => destruct (Req_EM_T u 0); [lra|] end; cbn [nmul nadd nsub nabs ndiv nsqrt']).
    unfold dang. do 3 f_equal. unfold dxx, dyy, ddist_of. rewrite !(b_dist b FR GC). fold p. change (length_of p (joins p x)) with xx. change (length_of p (joins p y)) with yy.
    destruct (Rlt_dec 0 xx); [|lra]. destruct (Rlt_dec 0 yy); [|lra]. reflexivity. }
  exists dang. split; [exact DANG|]. split.
  - intros c W. destruct (dot_at c x y W) as (l & D & B). destruct (apart_deriv c x W PX) as (lx & DX & BX). destruct (apart_deriv c y W PY) as (ly & DY & BY). fold dxy in B. fold dxx in BX. fold dyy in BY.
    eexists. split.
    + unfold angle_at. apply dmc. apply (dacos (fun s => dot33 (metric_at p c s) (joins_at p c x s) (joins_at p c y s) / (apart_at p c x s * apart_at p c y s))).
      cbv beta. rewrite Z. lra. apply (ddv (fun s => dot33 (metric_at p c s) (joins_at p c x s) (joins_at p c y s)) (fun s => apart_at p c x s * apart_at p c y s)).
      rewrite !apart_zero. fold xx yy. lra. exact D. apply (dm (apart_at p c x) (apart_at p c y)). exact DX. exact DY.
    + cbv beta. rewrite Z. rewrite dot_zero, !apart_zero. fold xx yy.
      assert (AL : along p (joins p x) (joins p y) = arg * (xx * yy)) by (rewrite AE; field; split; lra). rewrite AL.
      replace ((l * (xx * yy) - (lx * yy + xx * ly) * (arg * (xx * yy))) / (xx * yy * (xx * yy))) with (1 / (xx * yy) * l + - (arg / xx * lx) + - (arg / yy * ly)) by (field; split; lra).
      set (A := 1 / (xx * yy) * l + - (arg / xx * lx) + - (arg / yy * ly)). set (Bd := 1 / (xx * yy) * dxy + arg / xx * dxx + arg / yy * dyy) in *.
      assert (IX : 0 <= arg / xx) by (apply Rmult_le_pos; [lra|apply Rlt_le, Rinv_0_lt_compat; auto]). assert (IY : 0 <= arg / yy) by (apply Rmult_le_pos; [lra|apply Rlt_le, Rinv_0_lt_compat; auto]).
      assert (IP : 0 <= 1 / (xx * yy)) by (apply Rmult_le_pos; [lra|apply Rlt_le, Rinv_0_lt_compat; auto]).
      assert (AB : Rabs A <= Bd).
      { unfold A, Bd. eapply Rle_trans. apply Rabs_triang. apply Rplus_le_compat. eapply Rle_trans. apply Rabs_triang. apply Rplus_le_compat.
        - rewrite Rabs_mult, (Rabs_right (1 / (xx * yy))) by lra. apply Rmult_le_compat_l; auto.
        - rewrite Rabs_Ropp, Rabs_mult, (Rabs_right (arg / xx)) by lra. apply Rmult_le_compat_l; auto.
        - rewrite Rabs_Ropp, Rabs_mult, (Rabs_right (arg / yy)) by lra. apply Rmult_le_compat_l; auto. }
      unfold dang. pose proof rad_pos as RP. replace (-1 / sqrt (1 - arg * arg) * A * (180 / PI)) with (- (1 / sqrt (1 - arg * arg) / rad * A)).
      2: { unfold rad. field. pose proof PI_RGT_0. lra. }
      rewrite Rabs_Ropp, !(Rabs_mult (1 / sqrt (1 - arg * arg) / rad)). apply Rmult_le_compat_l. apply Rabs_pos. eapply Rle_trans; [exact AB|apply Rle_abs].
  - intros c. unfold angle_at. rewrite Z. unfold m_acosd, rad. field. pose proof PI_RGT_0. lra.
Qed.
End Err.
