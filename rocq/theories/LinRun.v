(** The course of a refinement of a model that is linear in the free parameters. *)
From Coq Require Import List Arith Reals Bool Lia Lra Classical_Prop FunctionalExtensionality.
From Verif Require Import Base RSum GaussModel GaussSpec GaussProof LsModel LsSpec LsProof CtlProof LsStep LsRun LsRaw LsMore LinSpec LinProof.
Import ListNotations.
Local Open Scope R_scope.

Lemma moved_ext o x y d d' : (forall l, free o l -> x l = y l) -> moved o x d d' -> moved o y d d'.
Proof.
  intros E (A & B & C). split; auto. split; auto. intros i I. destruct (C i I) as (C1 & C2 & C3 & C4). split; auto. split; auto. split; auto.
  rewrite C4, (along_ext o d i x y E). auto.
Qed.

Section Run.
Variable o : fobj.
Variable ds0 : list dsval.
Hypothesis LIN : linear o ds0.
Hypothesis W0 : weights_ok ds0.
Hypothesis ND0 : ~ dependent o ds0.
Notation ia := (f_ia o).
Notation ma := (f_ma o).

Lemma lin_at p ds : allowed o p -> f_theory o p = Ok ds -> Forall2 (moved o (fun l => p l - f_p o l)) ds0 ds.
Proof. intros A T. destruct LIN as [_ L]. destruct (L p A) as (ds' & T' & F). assert (ds' = ds) by congruence. subst; auto. Qed.
Lemma lin_between p ds p' ds' : allowed o p -> f_theory o p = Ok ds -> allowed o p' -> f_theory o p' = Ok ds' ->
  Forall2 (moved o (fun l => p' l - p l)) ds ds'.
Proof.
  intros A T A' T'. pose proof (moved_all o ds0 _ _ _ _ (lin_at p ds A T) (lin_at p' ds' A' T')) as F.
  clear - F. induction F; constructor; auto. eapply moved_ext; [|eassumption]. intros m _. lra.
Qed.
Lemma lin_ok p ds : allowed o p -> f_theory o p = Ok ds -> weights_ok ds /\ ~ dependent o ds.
Proof.
  intros A T. pose proof (lin_at p ds A T) as F. split. eapply moved_weights; eauto. intros D. apply ND0. eapply moved_dependent; eauto.
Qed.
Lemma lin_forms p ds : allowed o p -> f_theory o p = Ok ds ->
  (forall u v, dp o ds u v = dp o ds0 u v) /\ (forall u, change2 o ds u = change2 o ds0 u) /\ (forall k, conditioned o ds0 k -> conditioned o ds k).
Proof.
  intros A T. pose proof (lin_at p ds A T) as F.
  assert (D : forall u v, dp o ds u v = dp o ds0 u v).
  { intros u v. unfold dp. apply sum_free_ext. intros l Hl El. rewrite (moved_curvature o _ _ _ F) by (split; auto). auto. }
  split; auto. split. intros u. apply (moved_change2 o _ _ _ F).
  intros k [K1 K2]. split; auto. intros x. fold (dp o ds x x). rewrite D, (moved_change2 o _ _ _ F). apply K2.
Qed.

(** * the solution *)
Lemma single_sum l s f : free o l -> sum_free ia ma (fun m => f m * (if (m =? l)%nat then s else 0)) = f l * s.
Proof.
  intros [Hl El]. rewrite (sum_free_single ia ma _ l); auto. rewrite Nat.eqb_refl. auto. intros m _ _ N. destruct (Nat.eqb_spec m l); [congruence|lra].
Qed.
Lemma least_gradient q c dq : least o q c -> f_theory o q = Ok dq -> chisq_of dq = c /\ forall l, free o l -> gradient dq l = 0.
Proof.
  intros (A & (dq' & T' & C) & M) T. assert (dq' = dq) by congruence. subst dq'. split; auto. intros l F.
  destruct (lin_ok q dq A T) as [W ND]. pose proof (diag_pos o dq l W ND F) as P.
  set (g := gradient dq l). set (a := curvature dq l l) in *. set (s := g / a).
  set (p := fun m => q m + if (m =? l)%nat then s else 0).
  assert (AP : allowed o p). { intros m NF. unfold p. destruct (Nat.eqb_spec m l); [subst; tauto|]. rewrite (A m NF). lra. }
  destruct LIN as [_ L]. destruct (L p AP) as (dp' & TP & _). pose proof (lin_between q dq p dp' A T AP TP) as MV.
  specialize (M p dp' AP TP). rewrite (moved_chisq o _ _ _ MV), change2_form in M.
  rewrite (sum_free_ext ia ma _ (fun m => gradient dq m * (if (m =? l)%nat then s else 0))) in M by (intros; unfold p; ring).
  rewrite single_sum in M by auto. fold g in M.
  rewrite (sum_free_ext ia ma _ (fun m => (curvature dq m l * s) * (if (m =? l)%nat then s else 0))) in M.
  2:{ intros m Hm Em. rewrite (sum_free_ext ia ma _ (fun k => curvature dq m k * (if (k =? l)%nat then s else 0))) by (intros; unfold p; ring).
      rewrite single_sum by auto. unfold p. ring. }
  rewrite single_sum in M by auto. fold a in M.
  assert (E : a * s = g) by (unfold s; field; lra). rewrite E in M.
  assert (0 <= - (g * s)) by lra. assert (g * s = a * (s * s)) by (rewrite <- E; ring).
  assert (Z : s * s = 0). { pose proof (sq_nonneg s). assert (0 <= a * (s * s)) by (apply Rmult_le_pos; lra).
    assert (a * (s * s) = 0) by lra. apply Rmult_integral in H3 as [?|?]; lra. }
  assert (s = 0) by (apply Rmult_integral in Z; tauto). rewrite <- E, H1. ring.
Qed.
Lemma gradient_least q dq : allowed o q -> f_theory o q = Ok dq -> (forall l, free o l -> gradient dq l = 0) -> least o q (chisq_of dq).
Proof.
  intros A T G. split; auto. split. exists dq; auto. intros p ds AP TP.
  rewrite (moved_chisq o _ _ _ (lin_between q dq p ds A T AP TP)). rewrite sum_free_0.
  - pose proof (change2_nonneg o dq (fun l => p l - q l) (proj1 (lin_ok q dq A T))). lra.
  - intros l Hl El. rewrite G by (split; auto). lra.
Qed.
Lemma excess q c p ds : least o q c -> allowed o p -> f_theory o p = Ok ds -> chisq_of ds = c + change2 o ds0 (fun l => p l - q l).
Proof.
  intros LQ A T. pose proof LQ as (AQ & (dq & TQ & CQ) & _). destruct (least_gradient q c dq LQ TQ) as [_ G].
  rewrite (moved_chisq o _ _ _ (lin_between q dq p ds AQ TQ A T)), CQ, sum_free_0.
  - rewrite (proj1 (proj2 (lin_forms q dq AQ TQ))). lra.
  - intros l Hl El. rewrite G by (split; auto). lra.
Qed.
Lemma least_unique q c q' c' : least o q c -> least o q' c' -> q' = q /\ c' = c.
Proof.
  intros L1 L2. pose proof L1 as (A1 & (d1 & T1 & C1) & M1). pose proof L2 as (A2 & (d2 & T2 & C2) & M2).
  assert (E : c' = c). { pose proof (M1 _ _ A2 T2). pose proof (M2 _ _ A1 T1). lra. }
  split; auto. pose proof (excess q c q' d2 L1 A2 T2) as X. rewrite C2, E in X. apply functional_extensionality. intros l.
  destruct (free_dec o l) as [F|NF]. assert (Z : change2 o ds0 (fun l => q' l - q l) = 0) by lra. pose proof (change2_zero o ds0 _ W0 ND0 Z l F) as H. cbv beta in H. lra. rewrite (A1 l NF), (A2 l NF). auto.
Qed.
Lemma least_exists : exists q c, least o q c.
Proof.
  pose proof LIN as [T0 L]. pose proof (mrqcof_spec o (f_p o) (fun _ _ => 0) (fun _ => 0)) as MC.
  destruct (mrqcof o (f_p o) (fun _ _ => 0) (fun _ => 0)) as [[[o' al] be] r]. rewrite T0 in MC. destruct r as [c|e| |]; try (destruct MC; discriminate).
  destruct MC as (ds & E & _ & _ & NE). assert (ds = ds0) by congruence. subst ds.
  destruct (gaussj_full (rank ia ma) 1 (augment (rank ia ma) al (fun _ _ => 0) 0) (fun j _ => be j)) as [(A' & B' & _ & _ & S & _)|[_ SI]].
  2:{ exfalso. apply ND0. rewrite (damped_singular_iff ia ma ds0 al be) in SI by auto. apply dependent_singular; auto. }
  assert (SV : solves (rank ia ma) (augment (rank ia ma) al (fun _ _ => 0) 0) (fun j => B' j 1%nat) be). { intros r Hr. apply (S r 1%nat Hr). lia. }
  rewrite (damped_solves ia ma ds0 al be) in SV by auto.
  set (q := fun l => f_p o l + if (if free_dec o l then true else false) then B' (rank ia l) 1%nat else 0).
  assert (AQ : allowed o q). { intros l NF. unfold q. destruct (free_dec o l); [tauto|lra]. }
  destruct (L q AQ) as (dq & TQ & MQ). exists q, (chisq_of dq). apply gradient_least; auto. intros l F.
  rewrite (moved_gradient o _ _ _ MQ l F). pose proof F as [Hl El]. specialize (SV l Hl El). cbv beta in SV.
  rewrite (proj2 NE l Hl El) in SV. rewrite <- SV.
  rewrite (sum_free_ext ia ma (fun m => curvature ds0 l m * (q m - f_p o m)) (fun m => curvature ds0 l m * B' (rank ia m) 1%nat)). lra.
  intros m Hm Em. unfold q. destruct (free_dec o m) as [_|N]; [ring|]. exfalso. apply N. split; auto.
Qed.
Lemma exact_least q : allowed o q -> exact_at o q -> least o q 0.
Proof.
  intros A (dq & T & E). split; auto. split.
  - exists dq. split; auto. unfold chisq_of, ds_chisq. assert (H : forall d, In d dq -> lsum (fun i => d_w d i * (resid d i * resid d i)) (points d) = 0).
    { intros d Id. rewrite (lsum_ext _ (fun _ => 0)). clear. induction (points d); simpl; lra.
      intros i Ii. destruct (Req_dec (d_w d i) 0) as [->|N]. ring. unfold resid. rewrite (E d i Id Ii N). ring. }
    rewrite (lsum_ext _ (fun _ => 0)) by auto. clear. induction dq; simpl; lra.
  - intros p ds AP TP. unfold chisq_of, ds_chisq. apply lsum_nonneg. intros d Id. apply lsum_nonneg. intros i Ii.
    apply Rmult_le_pos. apply (proj1 (lin_ok p ds AP TP)); auto. apply sq_nonneg.
Qed.

(** * the steps *)
Variable q : nat -> R.
Variable c0 : R.
Hypothesis LQ : least o q c0.
Notation dist p := (spread o ds0 p q).

Definition bounds (k : nat) (p : nat -> R) : Prop :=
  dist p <= dist (f_p o) /\
  ((0 < k)%nat -> change2 o ds0 (fun l => p l - q l) <= / 10 ^ (k + 2) / 4 * dist (f_p o)) /\
  forall kap, conditioned o ds0 kap -> dist p <= (kap ^ k * shrink k) * (kap ^ k * shrink k) * dist (f_p o).
Definition there (p : nat -> R) : Prop := forall l, free o l -> p l = q l.

Lemma pow10_pos k : 0 < 10 ^ k. Proof. apply pow_lt. lra. Qed.
Lemma there_bounds k p : there p -> bounds k p.
Proof.
  intros T. assert (D : dist p = 0). { unfold spread. apply sum_free_0. intros l Hl El. rewrite (T l) by (split; auto). ring. }
  assert (C : change2 o ds0 (fun l => p l - q l) = 0).
  { rewrite (change2_ext o ds0 _ (fun _ => 0)) by (intros l F; rewrite (T l F); ring). rewrite change2_form. apply sum_free_0. intros; ring. }
  assert (N : 0 <= dist (f_p o)) by (apply (dp_nonneg o ds0); auto).
  split. rewrite D. auto. split.
  - intros _. rewrite C. apply Rmult_le_pos; auto. pose proof (Rinv_0_lt_compat _ (pow10_pos (k + 2))). lra.
  - intros kap _. rewrite D. apply Rmult_le_pos; auto. apply sq_nonneg.
Qed.

Lemma lin_main k s o1 ds : lsinv (Some s) o1 ds s -> 0 < f_alambda o1 -> same_session o o1 -> fixed_kept o o1 ->
  bounds k (f_p o1) -> there (f_p o1) \/ f_alambda o1 = / 10 ^ (k + 3) ->
  exists s' o' ds', mrq_main s o1 = (Some s', o', Ok tt) /\ lsinv (Some s') o' ds' s' /\ 0 < f_alambda o' /\ same_session o o' /\ fixed_kept o o' /\
    f_ochisq o' = f_ochisq o1 /\ (f_p o' = f_p o1 /\ chisq_of ds' = chisq_of ds \/ chisq_of ds' < chisq_of ds) /\
    bounds (S k) (f_p o') /\ (there (f_p o') \/ f_alambda o' = / 10 ^ (S k + 3)).
Proof.
  intros I LP SS FK BD PH. pose proof SS as (S1 & S2 & S3 & S4).
  assert (A1 : allowed o (f_p o1)) by exact FK.
  assert (T1 : f_theory o (f_p o1) = Ok ds) by (rewrite <- S3; apply (i_th _ _ _ _ I)).
  destruct (lin_ok _ _ A1 T1) as [W ND].
  assert (NS : ~ damped_singular ia ma ds (f_alambda o1)).
  { rewrite damped_singular_influence by auto. intros (l & Hl & El & N). apply (diag_zero_iff ds l W) in N.
    pose proof (diag_pos o ds l W ND (conj Hl El)). lra. }
  assert (OK : snd (mrq_main s o1) = Ok tt).
  { pose proof (inv_singular _ _ _ _ I) as SI. destruct (inv_bounds _ _ _ _ I) as (B1 & B2 & B3 & B4).
    rewrite S1, S2 in SI. destruct (mrq_main_raw s o1 B1 B2 B3 ltac:(lra) ltac:(lia) ltac:(rewrite SI; exact NS)) as (x & _ & st' & o' & r & E & C).
    cbv zeta in C. destruct LIN as [_ L].
    destruct (L (trial (f_ma o1) (f_ia o1) (f_p o1) x (s_atry s))) as (dst & TT & _).
    - intros l NF. rewrite trial_val. destruct (inr (f_ma o1) l && f_ia o1 l)%bool eqn:Q.
      + apply free_inr in Q. exfalso. apply NF. destruct Q as [Q1 Q2]. rewrite S1, S2 in *. split; auto.
      + rewrite (i_try _ _ _ _ I). apply A1; auto. intros Q1. apply free_inr in Q1. congruence.
    - rewrite S3, TT in C. rewrite E. apply C. }
  pose proof (mrq_main_step (Some s) o1 ds s I LP) as M. destruct (mrq_main s o1) as [[st' o'] r]. cbn [snd] in OK. subst r.
  destruct M as (MS & OC & t & dst & TF & DA & TH & C).
  assert (SS' : same_session o o') by exact (same_trans _ _ _ SS MS).
  assert (AT : allowed o t). { intros l NF. rewrite TF. apply A1; auto. unfold free in *. rewrite S1, S2. auto. }
  rewrite S3 in TH. rewrite S1, S2 in DA.
  pose proof (lin_between _ _ _ _ A1 T1 AT TH) as MV.
  pose proof LQ as (AQ & (dq & TQ & CQ) & MIN). destruct (least_gradient q c0 dq LQ TQ) as [_ GQ].
  assert (GE : forall l, free o l -> gradient ds l = - sum_free ia ma (fun m => curvature ds l m * (f_p o1 m - q m))).
  { intros l F. pose proof (lin_between _ _ _ _ A1 T1 AQ TQ) as MQ. pose proof (moved_gradient o _ _ _ MQ l F) as G. rewrite GQ in G by auto.
    rewrite (sum_free_ext ia ma (fun m => curvature ds l m * (f_p o1 m - q m)) (fun m => (-1) * (curvature ds l m * (q m - f_p o1 m)))) by (intros; ring).
    rewrite sum_free_scal. lra. }
  destruct C as [(LO & (P & LM & (s' & I2) & _))|(HI & (P & LM & (s' & I2) & _))].
  - pose proof (i_st _ _ _ _ I2) as ES. subst st'. exists s', o', dst. split; auto. split; auto. split. rewrite LM; lra. split; auto.
    split. { intros l NF. rewrite P. apply AT; auto. } split; auto. split. right; auto.
    assert (NT : ~ there (f_p o1)).
    { intros TE. rewrite (excess q c0 _ _ LQ A1 T1) in LO. rewrite (change2_ext o ds0 _ (fun _ => 0)) in LO by (intros l F; rewrite (TE l F); ring).
      rewrite (change2_form o ds0 (fun _ => 0)), sum_free_0 in LO by (intros; ring). pose proof (MIN _ _ AT TH). lra. }
    destruct PH as [PH|PH]; [tauto|].
    destruct (damped_bounds o ds (f_alambda o1) (fun l => f_p o1 l - q l) (fun l => t l - f_p o1 l) W LP GE DA) as (D1 & D2 & D3).
    destruct (lin_forms _ _ A1 T1) as (FD & FC & FK2). repeat rewrite FD in D1. repeat rewrite FD in D2. rewrite FC in D2.
    assert (EU : (fun l => f_p o1 l - q l + (t l - f_p o1 l)) = (fun l => t l - q l)) by (apply functional_extensionality; intros; ring).
    rewrite EU in D1, D2, D3. change (dist t <= dist (f_p o1)) in D1. change (change2 o ds0 (fun l => t l - q l) <= f_alambda o1 / 4 * dist (f_p o1)) in D2. rewrite P.
    destruct BD as (BD1 & BD2 & BD3). pose proof (Rinv_0_lt_compat _ (pow10_pos (k + 3))) as PI.
    assert (ND1 : 0 <= dist (f_p o1)) by (apply (dp_nonneg o ds0); auto).
    split; [split; [lra|split]|].
    + intros _. replace (S k + 2)%nat with (k + 3)%nat by lia. rewrite PH in D2.
      apply (Rle_trans _ (/ 10 ^ (k + 3) / 4 * dist (f_p o1))); auto. apply Rmult_le_compat_l; lra.
    + intros kap KC. specialize (D3 kap (FK2 kap KC)). repeat rewrite FD in D3. specialize (BD3 kap KC). rewrite PH in D3.
      change (dist t <= kap * / 10 ^ (k + 3) * (kap * / 10 ^ (k + 3)) * dist (f_p o1)) in D3.
      apply (Rle_trans _ _ _ D3). cbn [pow shrink]. apply (Rle_trans _ (kap * / 10 ^ (k + 3) * (kap * / 10 ^ (k + 3)) *
        (kap ^ k * shrink k * (kap ^ k * shrink k) * dist (f_p o)))). apply Rmult_le_compat_l; auto. apply sq_nonneg. right. ring.
    + right. rewrite LM, PH. replace (S k + 3)%nat with (S (k + 3)) by lia. cbn [pow]. rewrite Rinv_mult. ring.
  - pose proof (i_st _ _ _ _ I2) as ES. subst st'. exists s', o', ds. split; auto. split; auto. split. rewrite LM; lra. split; auto.
    split. { intros l NF. rewrite P. apply A1; auto. } split; auto. split. left; auto.
    assert (TE : there (f_p o1)).
    { destruct (classic (exists l, free o l /\ gradient ds l <> 0)) as [G|G].
      - pose proof (damped_lowers o ds dst (f_alambda o1) _ W LP ND MV DA G). lra.
      - assert (LP1 : least o (f_p o1) (chisq_of ds)). { apply gradient_least; auto. intros l F. destruct (Req_dec (gradient ds l) 0); auto. exfalso. apply G. eauto. }
        destruct (least_unique q c0 _ _ LQ LP1) as [E _]. intros l _. rewrite E. auto. }
    rewrite P. split. apply there_bounds; auto. left; auto.
Qed.
End Run.
