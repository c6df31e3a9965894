(** Damped steps in a model that is linear in the free parameters. *)
From Coq Require Import List Arith Reals Bool Lia Lra Classical_Prop.
From Verif Require Import Base RSum GaussModel GaussSpec GaussProof LsModel LsSpec LsProof CtlProof LsStep LsRun LsRaw LsMore LinSpec.
Import ListNotations.
Local Open Scope R_scope.

(** * sums *)
Lemma sum_free_minus ia ma f g : sum_free ia ma (fun l => f l - g l) = sum_free ia ma f - sum_free ia ma g.
Proof.
  rewrite (sum_free_ext ia ma _ (fun l => f l + (-1) * g l)) by (intros; lra). rewrite sum_free_plus, sum_free_scal. lra.
Qed.
Lemma sum_free_nonneg ia ma f : (forall l, (1 <= l <= ma)%nat -> ia l = true -> 0 <= f l) -> 0 <= sum_free ia ma f.
Proof.
  intros H. unfold sum_free, S1. apply rsum_nonneg. intros i Hi. destruct (ia (S i)) eqn:E; [|lra]. apply H; auto. lia.
Qed.
Lemma sum_free_le ia ma f g : (forall l, (1 <= l <= ma)%nat -> ia l = true -> f l <= g l) -> sum_free ia ma f <= sum_free ia ma g.
Proof.
  intros H. assert (0 <= sum_free ia ma (fun l => g l - f l)) as Q. { apply sum_free_nonneg. intros l Hl El. specialize (H l Hl El). lra. }
  rewrite sum_free_minus in Q. lra.
Qed.
Lemma sum_free_0 ia ma f : (forall l, (1 <= l <= ma)%nat -> ia l = true -> f l = 0) -> sum_free ia ma f = 0.
Proof. intros H. rewrite (sum_free_ext ia ma _ (fun _ => 0 * 0)) by (intros; rewrite H by auto; lra). rewrite sum_free_scal. lra. Qed.
Lemma lsum_Forall2 {A} (f g : A -> R) (P : A -> A -> Prop) l l' : Forall2 P l l' -> (forall a b, In a l -> P a b -> f a = g b) -> lsum f l = lsum g l'.
Proof.
  induction 1 as [|a b l l' H F IH]; intros E; simpl; auto. rewrite (E a b) by (auto; left; auto). rewrite IH; auto. intros; apply E; auto. right; auto.
Qed.
Lemma lsum_minus {A} (f g : A -> R) l : lsum (fun a => f a - g a) l = lsum f l - lsum g l.
Proof. induction l; simpl; lra. Qed.

Section Lin.
Variable o : fobj.
Variable ds0 : list dsval.
Notation ia := (f_ia o).
Notation ma := (f_ma o).
Notation al := (along ia ma).

Lemma along_minus d i x y : al d i (fun l => x l - y l) = al d i x - al d i y.
Proof. unfold along. rewrite <- sum_free_minus. apply sum_free_ext. intros; lra. Qed.
Lemma along_ext d i x y : (forall l, free o l -> x l = y l) -> al d i x = al d i y.
Proof. intros E. unfold along. apply sum_free_ext. intros l Hl El. rewrite E; auto. split; auto. Qed.

Lemma moved_points x d d' : moved o x d d' -> points d' = points d.
Proof. intros (A & B & _). unfold points. rewrite A, B. auto. Qed.
Lemma moved_along x d d' i y : moved o x d d' -> In i (points d) -> al d' i y = al d i y.
Proof. intros (_ & _ & H) I. destruct (H i I) as (_ & _ & D & _). unfold along. apply sum_free_ext. intros l Hl El. rewrite D; auto. split; auto. Qed.

(** from one state to another *)
Lemma moved_between x y d d1 d2 : moved o x d d1 -> moved o y d d2 -> moved o (fun l => y l - x l) d1 d2.
Proof.
  intros M1 M2. pose proof (moved_points _ _ _ M1) as PT. destruct M1 as (A1 & A2 & A3) eqn:EM. destruct M2 as (B1 & B2 & B3).
  split. congruence. split. congruence. rewrite PT. intros i I. destruct (A3 i I) as (C1 & C2 & C3 & C4). destruct (B3 i I) as (D1 & D2 & D3 & D4).
  split. congruence. split. congruence. split. intros l F. rewrite D3, C3; auto.
  rewrite D4, C4, (moved_along x d d1 i _ (conj A1 (conj A2 A3)) I), along_minus. lra.
Qed.
Lemma moved_all x y d1 d2 : Forall2 (moved o x) ds0 d1 -> Forall2 (moved o y) ds0 d2 -> Forall2 (moved o (fun l => y l - x l)) d1 d2.
Proof.
  intros F1. revert d2. induction F1 as [|a b L L' M F IH]; intros d2 F2; inversion F2; subst; constructor; auto.
  eapply moved_between; eauto.
Qed.

Section Step.
Variables (x : nat -> R) (ds ds' : list dsval).
Hypothesis M : Forall2 (moved o x) ds ds'.

Lemma moved_curvature l m : free o l -> free o m -> curvature ds' l m = curvature ds l m.
Proof.
  intros Fl Fm. symmetry. unfold curvature. apply (lsum_Forall2 _ _ _ _ _ M). intros a b _ Q. rewrite (moved_points _ _ _ Q).
  apply lsum_ext. intros i I. destruct Q as (_ & _ & Q). destruct (Q i I) as (_ & W & D & _). rewrite W, !D by auto. reflexivity.
Qed.
Lemma moved_gradient l : free o l -> gradient ds' l = gradient ds l - sum_free ia ma (fun m => curvature ds l m * x m).
Proof.
  intros Fl. rewrite curvature_along. unfold gradient. rewrite <- lsum_minus. symmetry. apply (lsum_Forall2 _ _ _ _ _ M).
  intros a b _ Q. rewrite (moved_points _ _ _ Q), <- lsum_minus. apply lsum_ext. intros i I. destruct Q as (_ & _ & Q).
  destruct (Q i I) as (OB & W & D & P). unfold resid. rewrite OB, W, D, P by auto. lra.
Qed.
Lemma moved_chisq : chisq_of ds' = chisq_of ds - 2 * sum_free ia ma (fun l => gradient ds l * x l) + change2 o ds x.
Proof.
  assert (G : sum_free ia ma (fun l => gradient ds l * x l) =
    lsum (fun d => lsum (fun i => d_w d i * resid d i * al d i x) (points d)) ds).
  { unfold gradient, along.
    rewrite (sum_free_ext ia ma _ (fun l => lsum (fun d => lsum (fun i => d_w d i * resid d i * (dpar d i l * x l)) (points d)) ds)).
    - rewrite sum_free_lsum. apply lsum_ext. intros d _. rewrite sum_free_lsum. apply lsum_ext. intros i _. rewrite sum_free_scal. auto.
    - intros l _ _. rewrite Rmult_comm, <- lsum_scal. apply lsum_ext. intros d _. rewrite <- lsum_scal. apply lsum_ext. intros; lra. }
  rewrite G. unfold change2, chisq_of, ds_chisq.
  rewrite <- lsum_scal, <- lsum_minus, <- lsum_plus. symmetry. apply (lsum_Forall2 _ _ _ _ _ M).
  intros a b _ Q. rewrite (moved_points _ _ _ Q), <- lsum_scal, <- lsum_minus, <- lsum_plus. apply lsum_ext. intros i I.
  destruct Q as (_ & _ & Q). destruct (Q i I) as (OB & W & D & P). unfold resid. rewrite OB, W, P. ring.
Qed.
Lemma moved_change2 y : change2 o ds' y = change2 o ds y.
Proof.
  symmetry. unfold change2. apply (lsum_Forall2 _ _ _ _ _ M). intros a b _ Q. rewrite (moved_points _ _ _ Q). apply lsum_ext. intros i I.
  rewrite (moved_along _ _ _ _ _ Q I). destruct Q as (_ & _ & Q). destruct (Q i I) as (_ & W & _). rewrite W. auto.
Qed.
Lemma moved_weights : weights_ok ds -> weights_ok ds'.
Proof.
  intros W. revert W. induction M as [|a b L L' Q F IH]; intros W d i I J; [destruct I|].
  destruct I as [<-|I].
  - rewrite (moved_points _ _ _ Q) in J. destruct Q as (_ & _ & Q). destruct (Q i J) as (_ & E & _). rewrite E. apply W; auto. left; auto.
  - apply IH; auto. intros d' i' I' J'. apply W; auto. right; auto.
Qed.
Lemma moved_dependent : dependent o ds' -> dependent o ds.
Proof.
  intros (y & NZ & H). exists y. split; auto. intros d i I J W. clear NZ.
  induction M as [|a b L L' Q F IH]; [destruct I|]. destruct I as [<-|I].
  - pose proof (moved_along _ _ _ _ y Q J) as E. pose proof (moved_points _ _ _ Q) as PT. unfold along in E. rewrite <- E. apply (H b i). left; auto. rewrite PT; auto.
    destruct Q as (_ & _ & Q). destruct (Q i J) as (_ & -> & _). auto.
  - apply IH; auto. intros; apply H; auto. right; auto.
Qed.
End Step.

(** * the forms *)
Lemma change2_form ds x : change2 o ds x = sum_free ia ma (fun l => x l * sum_free ia ma (fun m => curvature ds l m * x m)).
Proof. symmetry. apply quadratic_form. Qed.
Lemma change2_nonneg ds x : weights_ok ds -> 0 <= change2 o ds x.
Proof. intros W. rewrite change2_form. apply quadratic_nonneg; auto. Qed.
Lemma change2_ext ds x y : (forall l, free o l -> x l = y l) -> change2 o ds x = change2 o ds y.
Proof. intros E. unfold change2. apply lsum_ext. intros d _. apply lsum_ext. intros i _. rewrite (along_ext d i x y E). auto. Qed.
Lemma change2_zero ds x : weights_ok ds -> ~ dependent o ds -> change2 o ds x = 0 -> forall l, free o l -> x l = 0.
Proof.
  intros W ND Z l F. destruct (Req_dec (x l) 0) as [E|N]; auto. exfalso. apply ND. exists x. split. exists l; auto.
  unfold change2 in Z. intros d i Id Ii NW.
  assert (P : forall d, In d ds -> forall i, In i (points d) -> 0 <= d_w d i * (al d i x * al d i x)).
  { intros. apply Rmult_le_pos. apply W; auto. apply sq_nonneg. }
  pose proof (lsum_zero_terms _ _ (fun d Hd => lsum_nonneg _ _ (P d Hd)) Z d Id) as Z1. cbv beta in Z1.
  pose proof (lsum_zero_terms _ _ (P d Id) Z1 i Ii) as Z2. cbv beta in Z2.
  apply Rmult_integral in Z2 as [Z2|Z2]; [congruence|]. apply Rmult_integral in Z2 as [Z2|Z2]; auto.
Qed.
Lemma diag_pos ds l : weights_ok ds -> ~ dependent o ds -> free o l -> 0 < curvature ds l l.
Proof.
  intros W ND F. destruct (curvature_diag_nonneg ds l W) as [H|H]; auto. exfalso. apply ND.
  pose proof (proj1 (diag_zero_iff ds l W) (eq_sym H)) as N. exists (fun k => if (k =? l)%nat then 1 else 0). split.
  - exists l. split; auto. rewrite Nat.eqb_refl. lra.
  - intros d i Id Ii NW. apply sum_free_0. intros m Hm Em. destruct (Nat.eqb_spec m l); [subst|lra]. rewrite (N d i Id Ii NW). lra.
Qed.

(** weighted products *)
Definition dp (ds : list dsval) (u v : nat -> R) : R := sum_free ia ma (fun l => curvature ds l l * (u l * v l)).
Lemma dp_square ds u v a : weights_ok ds -> 0 <= dp ds u u - 2 * a * dp ds u v + a * a * dp ds v v.
Proof.
  intros W. unfold dp. rewrite <- !sum_free_scal, <- sum_free_minus, <- sum_free_plus. apply sum_free_nonneg. intros l _ _.
  replace (_ + _) with (curvature ds l l * ((u l - a * v l) * (u l - a * v l))) by ring. apply Rmult_le_pos. apply curvature_diag_nonneg; auto. apply sq_nonneg.
Qed.
Lemma dp_nonneg ds u : weights_ok ds -> 0 <= dp ds u u.
Proof. intros W. apply sum_free_nonneg. intros l _ _. apply Rmult_le_pos. apply curvature_diag_nonneg; auto. apply sq_nonneg. Qed.
Lemma dp_zero ds u : weights_ok ds -> ~ dependent o ds -> dp ds u u = 0 -> forall l, free o l -> u l = 0.
Proof.
  intros W ND Z l F. pose proof F as [Hl El].
  pose proof (sum_free_zero_terms ia ma _ (fun l => Rmult_le_pos _ _ (curvature_diag_nonneg ds l W) (sq_nonneg (u l))) Z l Hl El) as T. cbv beta in T.
  pose proof (diag_pos ds l W ND F). apply Rmult_integral in T as [T|T]; [lra|]. apply Rmult_integral in T; tauto.
Qed.

(** a damped step x from the distance e to the solution leads to the distance u = e + x *)
Lemma damped_error ds lam e x :
  (forall l, free o l -> gradient ds l = - sum_free ia ma (fun m => curvature ds l m * e m)) ->
  damped ia ma ds lam x (gradient ds) ->
  change2 o ds (fun l => e l + x l) + lam * dp ds (fun l => e l + x l) (fun l => e l + x l) = lam * dp ds (fun l => e l + x l) e.
Proof.
  intros G D. rewrite change2_form. unfold dp. rewrite <- !sum_free_scal, <- sum_free_plus. apply sum_free_ext. intros l Hl El.
  specialize (D l Hl El). cbv beta in D. rewrite (G l (conj Hl El)) in D.
  assert (S : sum_free ia ma (fun m => curvature ds l m * (e m + x m)) =
    sum_free ia ma (fun m => curvature ds l m * e m) + sum_free ia ma (fun m => curvature ds l m * x m)).
  { rewrite <- sum_free_plus. apply sum_free_ext. intros; ring. }
  rewrite S.
  replace (sum_free ia ma (fun m => curvature ds l m * x m)) with (- sum_free ia ma (fun m => curvature ds l m * e m) - lam * curvature ds l l * x l) by lra.
  ring.
Qed.

Lemma damped_bounds ds lam e x : weights_ok ds -> 0 < lam ->
  (forall l, free o l -> gradient ds l = - sum_free ia ma (fun m => curvature ds l m * e m)) ->
  damped ia ma ds lam x (gradient ds) ->
  let u := fun l => e l + x l in
  dp ds u u <= dp ds e e /\ change2 o ds u <= lam / 4 * dp ds e e /\
  forall k, conditioned o ds k -> dp ds u u <= k * lam * (k * lam) * dp ds e e.
Proof.
  intros W LP G D. pose proof (damped_error ds lam e x G D) as E. cbv zeta. set (u := fun l => e l + x l) in *.
  pose proof (change2_nonneg ds u W) as N. pose proof (dp_square ds u e 1 W) as Q1. pose proof (dp_square ds u e (/ 2) W) as Q2.
  pose proof (dp_nonneg ds u W) as NU. pose proof (dp_nonneg ds e W) as NE.
  assert (UE : dp ds u u <= dp ds u e).
  { apply (Rmult_le_reg_l lam); auto. lra. }
  split. lra. split.
  - assert (dp ds u e - dp ds u u <= / 4 * dp ds e e) by lra.
    assert (lam * (dp ds u e - dp ds u u) <= lam * (/ 4 * dp ds e e)) by (apply Rmult_le_compat_l; lra). lra.
  - intros k [KP K]. specialize (K u). fold (dp ds u u) in K.
    assert (A : change2 o ds u <= lam * dp ds u e). { assert (0 <= lam * dp ds u u) by (apply Rmult_le_pos; lra). lra. }
    assert (B : dp ds u u <= k * lam * dp ds u e).
    { apply (Rle_trans _ (k * change2 o ds u)); auto. rewrite Rmult_assoc. apply Rmult_le_compat_l; auto. }
    pose proof (dp_square ds u e (k * lam) W). lra.
Qed.

(** a step that moves lowers chi squared *)
Lemma damped_lowers ds ds' lam x : weights_ok ds -> 0 < lam -> ~ dependent o ds -> Forall2 (moved o x) ds ds' ->
  damped ia ma ds lam x (gradient ds) -> (exists l, free o l /\ gradient ds l <> 0) -> chisq_of ds' < chisq_of ds.
Proof.
  intros W LP ND M D (l & F & NZ). rewrite (moved_chisq x ds ds' M).
  assert (E : sum_free ia ma (fun l => gradient ds l * x l) = change2 o ds x + lam * dp ds x x).
  { rewrite change2_form. unfold dp. rewrite <- sum_free_scal, <- sum_free_plus. apply sum_free_ext. intros k Hk Ek.
    rewrite <- (D k Hk Ek). ring. }
  rewrite E. pose proof (change2_nonneg ds x W).
  assert (P : 0 < dp ds x x).
  { destruct (dp_nonneg ds x W) as [P|P]; auto. exfalso. pose proof (dp_zero ds x W ND (eq_sym P)) as Z. apply NZ.
    destruct F as [Hl El]. rewrite <- (D l Hl El). rewrite (Z l (conj Hl El)), sum_free_0. lra. intros m Hm Em. rewrite (Z m (conj Hm Em)). lra. }
  assert (0 < lam * dp ds x x) by (apply Rmult_lt_0_compat; auto). lra.
Qed.
End Lin.
