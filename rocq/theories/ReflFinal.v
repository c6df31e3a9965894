(** The outer limit of the spacings. *)
From Coq Require Import List Arith ZArith Reals Lra Lia.
From Verif Require Import Base MathModel MathProof MetricModel MetricSpec MetricProof SphereModel SphereSpec SphereProof PdfModel ReflModel ReflSpec ReflProof.
Local Open Scope R_scope.

(** when rmin is a multiple of the edge c nothing is excluded on the line
    through the origin *)
Lemma line_visited a b c alpha beta gamma rmax (j o : Z) : proper_cell a b c alpha beta gamma -> (0 < j)%Z -> IZR j * c < rmax -> Rabs (IZR o) * c < rmax ->
  exists f0 L, (forall f, (f0 <= f)%nat -> points_in_sphere f (IZR j * c) rmax (lp_make a b c alpha beta gamma) = Ok L) /\ In (0, 0, o)%Z L.
Proof.
  intros P J M MO. pose proof P as (_ & _ & C & _). apply IZR_lt in J. assert (RM : 0 < IZR j * c) by (apply Rmult_lt_0_compat; auto).
  set (l := lp_make a b c alpha beta gamma). set (k := sph_init (IZR j * c) rmax l).
  destruct (k_pos a b c alpha beta gamma (IZR j * c) rmax P) as (KA & KB & KC). fold l in KA, KB, KC. fold k in KA, KB, KC.
  destruct (sphere_runs k) as [f R]. exists f, (sphere_list k). split.
  { intros f' F. unfold points_in_sphere. cbv zeta. fold l k. apply (visit_mono k f); auto. }
  apply (sphere_in k KC KA KB eq_refl).
  assert (N0 : n0_of k 0 = 0) by (unfold n0_of; ring). assert (O0 : o0_of k 0 0 = 0) by (unfold o0_of; rewrite N0; ring).
  assert (RL : rl2_of k 0 0 = k_rmax2 k). { unfold rl2_of, rp2_of. rewrite N0. field. lra. }
  assert (RX : k_rmax2 k = rmax * rmax). { unfold k, sph_init. cbn [k_rmax2]. destruct (Rlt_dec rmax 0); lra. }
  assert (RN : k_rmin2 k = (IZR j * c) * (IZR j * c)). { unfold k, sph_init. cbn [k_rmin2]. destruct (Rlt_dec (IZR j * c) 0); lra. }
  assert (C1 : k_c1r k = 1 / c) by reflexivity.
  assert (EX : excl_of k 0 0 = IZR j).
  { unfold excl_of, sqrt_pos. rewrite RL. replace (k_rmin2 k + (k_rmax2 k - k_rmax2 k)) with (k_rmin2 k) by ring. rewrite RN. destruct (Rlt_dec _ _) as [Q|Q]; [|nra].
    rewrite sqrt_square by lra. rewrite C1. field. lra. }
  split.
  - unfold r2_of. rewrite N0, O0, RX. rewrite C1.
    replace (IZR 0 / k_ar k * (IZR 0 / k_ar k) + (IZR 0 - 0) / k_b2r k * ((IZR 0 - 0) / k_b2r k) + (IZR o - 0) / (1 / c) * ((IZR o - 0) / (1 / c)))
      with (Rabs (IZR o) * c * (Rabs (IZR o) * c)).
    + assert (0 <= Rabs (IZR o) * c) by (apply Rmult_le_pos; [apply Rabs_pos|lra]). clear - MO H. nra.
    + transitivity (Rabs (IZR o) * Rabs (IZR o) * (c * c)). ring. rewrite <- Rabs_mult. rewrite Rabs_right by (pose proof (Rle_0_sqr (IZR o)) as Q; unfold Rsqr in Q; lra). field. repeat split; lra.
  - intros (_ & H & _). rewrite EX, O0 in H. unfold hole_of in H. rewrite EX, O0 in H.
    assert (E : zceil (0 - IZR j) = (- j)%Z).
    { apply Z.le_antisymm. apply zceil_le. rewrite opp_IZR. lra. apply Z.lt_pred_le. apply zceil_gt. unfold Z.pred. rewrite plus_IZR, opp_IZR. lra. }
    rewrite E, opp_IZR in H. apply Rabs_def2 in H. lra.
Qed.

Section L.
Variables a b c alpha beta gamma : R.
Hypothesis P : proper_cell a b c alpha beta gamma.
Let l := lp_make a b c alpha beta gamma.
Let cs := lp_cr l.

Lemma cs_pos : 0 < cs.
Proof.
  destruct (signs _ _ _ _ _ _ P) as (A & B & C & SA & SB & SG & VP & _). unfold cs, l, lp_make. cbn [lp_cr]. apply Rdiv_lt_0_compat; auto. apply Rmult_lt_0_compat; auto.
Qed.
Lemma r_line o : lp_r (lp_reciprocal l) 0 0 o = Rabs (IZR o) * cs.
Proof.
  pose proof cs_pos. unfold lp_r. cbn [lp_a lp_b lp_c lp_ca lp_cb lp_cg lp_reciprocal]. fold cs. apply sqrt_of.
  - apply Rmult_le_pos; [apply Rabs_pos|lra].
  - transitivity (IZR o * IZR o * (cs * cs)). ring. transitivity (Rabs (IZR o) * Rabs (IZR o) * (cs * cs)); [|ring]. rewrite <- Rabs_mult.
    rewrite Rabs_right by (pose proof (Rle_0_sqr (IZR o)) as Q; unfold Rsqr in Q; lra). reflexivity.
Qed.
Lemma d_line o d : plane_spacing a b c alpha beta gamma 0 0 o d -> 1 / d = Rabs (IZR o) * cs /\ 0 < d.
Proof.
  intros S. pose proof (spacing_nz _ _ _ _ _ _ _ _ _ _ S) as N. destruct (spacing_of _ _ _ _ _ _ P _ _ _ N) as [L Q]. fold l in L, Q.
  rewrite (spacing_unique _ _ _ _ _ _ _ _ _ _ _ S Q). rewrite <- r_line. split. field. lra. apply Rdiv_lt_0_compat; lra.
Qed.

Lemma limit_line dmax dmin (j : Z) : (0 < j)%Z -> plane_spacing a b c alpha beta gamma 0 0 j dmax -> 0 < dmin < dmax ->
  forall o, (o = 0%Z \/ exists d, plane_spacing a b c alpha beta gamma 0 0 o d /\ dmin < d) ->
  exists fuel0 L, (forall fuel, (fuel0 <= fuel)%nat -> dspacing_points fuel dmax dmin l = Ok L) /\ In (0, 0, o)%Z L.
Proof.
  intros J SJ D o O. pose proof PI_RGT_0 as PI0. destruct (d_line _ _ SJ) as [EJ DJ]. assert (IZR 0 < IZR j) by (apply IZR_lt; auto). rewrite Rabs_right in EJ by lra.
  assert (IV : forall x, dmin < x -> 1 / x < 1 / dmin). { intros x X. unfold Rdiv. rewrite !Rmult_1_l. apply Rinv_lt_contravar; auto. apply Rmult_lt_0_compat; lra. }
  assert (MO : Rabs (IZR o) * cs < 1 / dmin).
  { destruct O as [->|(d & S & Q)]. rewrite Rabs_R0, Rmult_0_l. apply Rdiv_lt_0_compat; lra. destruct (d_line _ _ S) as [<- _]. apply IV; auto. }
  pose proof (recip_proper _ _ _ _ _ _ P) as R.
  assert (MJ : IZR j * cs < 1 / dmin) by (rewrite <- EJ; apply IV; lra).
  destruct (line_visited _ _ _ _ _ _ (1 / dmin) j o R J MJ MO) as (f & L & H1 & H2).
  exists f, L. split; auto. intros fuel F. unfold dspacing_points. destruct (Req_EM_T dmax 0); [lra|]. destruct (Req_EM_T dmin 0); [lra|].
  unfold refl_points, l. rewrite (recip_make _ _ _ _ _ _ P). rewrite <- (H1 fuel F). f_equal; [|field; lra].
  match goal with |- _ = IZR j * ?x => change x with cs end. rewrite <- EJ. field. lra.
Qed.
End L.
