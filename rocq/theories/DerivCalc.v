(** Derivatives of a peak with respect to everything it depends on. *)
From Coq Require Import List Arith ZArith Reals Bool Lia Lra.
From Verif Require Import Base RSum MathModel ParserDeriv MathProof MetricModel MetricSpec MetricProof PdfModel PdfSpec PdfSum.
Import ListNotations.
Local Open Scope R_scope.

Notation dl := derivable_pt_lim.
Lemma dp f g x a b : dl f x a -> dl g x b -> dl (fun y => f y + g y) x (a + b). Proof. apply derivable_pt_lim_plus. Qed.
Lemma dmi f g x a b : dl f x a -> dl g x b -> dl (fun y => f y - g y) x (a - b). Proof. apply derivable_pt_lim_minus. Qed.
Lemma dop f x a : dl f x a -> dl (fun y => - f y) x (- a). Proof. apply derivable_pt_lim_opp. Qed.
Lemma dm f g x a b : dl f x a -> dl g x b -> dl (fun y => f y * g y) x (a * g x + f x * b). Proof. apply derivable_pt_lim_mult. Qed.
Lemma dcm c f x a : dl f x a -> dl (fun y => c * f y) x (c * a). Proof. intros. apply (derivable_pt_lim_scal f c x a). auto. Qed.
Lemma dmc c f x a : dl f x a -> dl (fun y => f y * c) x (a * c).
Proof. intros. apply dlim_ext with (f := fun y => c * f y). intros; ring. rewrite Rmult_comm. apply dcm. auto. Qed.
Lemma ddv f g x a b : g x <> 0 -> dl f x a -> dl g x b -> dl (fun y => f y / g y) x ((a * g x - b * f x) / (g x * g x)).
Proof. intros. apply (derivable_pt_lim_div f g x a b); auto. Qed.
Lemma dinv g x b : g x <> 0 -> dl g x b -> dl (fun y => / g y) x (- b / (g x * g x)).
Proof.
  intros N H. apply dlim_ext with (f := fun y => 1 / g y). { intros. unfold Rdiv. ring. } eapply dl_eq. apply ddv; auto. apply (dlim_const 1). exact H. cbv beta. field. auto.
Qed.
Lemma dsq f x a : 0 < f x -> dl f x a -> dl (fun y => sqrt (f y)) x (a / (2 * sqrt (f x))).
Proof.
  intros P H. eapply dl_eq. eapply (derivable_pt_lim_comp f sqrt x a _ H). apply derivable_pt_lim_sqrt. auto. pose proof (sqrt_lt_R0 _ P). field. lra.
Qed.
Lemma dex f x a : dl f x a -> dl (fun y => exp (f y)) x (exp (f x) * a).
Proof. intros H. apply (derivable_pt_lim_comp f exp x a _ H). apply derivable_pt_lim_exp. Qed.
Lemma did x : dl (fun y => y) x 1. Proof. apply derivable_pt_lim_id. Qed.
Lemma dif (b : bool) f x a : (b = true -> dl f x a) -> dl (fun y => if b then f y else 0) x (if b then a else 0).
Proof. destruct b; auto. intros _. apply (dlim_const 0). Qed.
Lemma dsum {A} (l : list A) (F : A -> R -> R) (a : A -> R) x : (forall b, In b l -> dl (F b) x (a b)) -> dl (fun y => lsum (fun b => F b y) l) x (lsum a l).
Proof.
  induction l as [|b l IH]; intros H. apply (dlim_const 0). apply dlim_ext with (f := fun y => F b y + lsum (fun b => F b y) l). reflexivity.
  rewrite lsum_cons. apply dp. apply H. left; auto. apply IH. intros; apply H; right; auto.
Qed.
Lemma drsum n (F : nat -> R -> R) (a : nat -> R) x : (forall i, (i < n)%nat -> dl (F i) x (a i)) -> dl (fun y => rsum n (fun i => F i y)) x (rsum n a).
Proof.
  intros H. rewrite <- lsum_seq. apply dlim_ext with (f := fun y => lsum (fun i => F i y) (seq 0 n)). intros; apply (lsum_seq (fun i => F i y)). apply dsum. intros b I. apply in_seq in I. apply H. lia.
Qed.
Lemma dcont f x a : dl f x a -> continuity_pt f x.
Proof. intros H. apply derivable_continuous_pt. exists a. exact H. Qed.
(** a continuous function keeps its side of a threshold *)
Lemma side_lt f x c : continuity_pt f x -> f x < c -> exists e, 0 < e /\ forall y, Rabs (y - x) < e -> f y < c.
Proof.
  intros H L. destruct (H (c - f x) ltac:(lra)) as (e & E & X). exists e. split; auto. intros y Hy. destruct (Req_dec y x) as [->|Ne]; auto.
  specialize (X y). assert (Q : Rabs (f y - f x) < c - f x). { apply X. split. split. exact I. auto. exact Hy. } apply Rabs_def2 in Q. lra.
Qed.
Lemma side_gt f x c : continuity_pt f x -> c < f x -> exists e, 0 < e /\ forall y, Rabs (y - x) < e -> c < f y.
Proof.
  intros H L. destruct (H (f x - c) ltac:(lra)) as (e & E & X). exists e. split; auto. intros y Hy. destruct (Req_dec y x) as [->|Ne]; auto.
  specialize (X y). assert (Q : Rabs (f y - f x) < f x - c). { apply X. split. split. exact I. auto. exact Hy. } apply Rabs_def2 in Q. lra.
Qed.

(** the normal distribution *)
Lemma dnormal s z x s' z' : 0 < s x -> dl s x s' -> dl z x z' ->
  dl (fun y => normal (s y) (z y)) x (normal (s x) (z x) * ((z x / s x * (z x / s x) - 1) / s x * s' - z x / (s x * s x) * z')).
Proof.
  intros P S Z. unfold normal. assert (Q : 0 < sqrt (2 * PI)) by (apply sqrt_lt_R0; pose proof PI_RGT_0; lra).
  eapply dl_eq.
  - apply dm. apply (dinv (fun y => s y * sqrt (2 * PI))). nra. apply dmc. exact S.
    apply (dex (fun y => - (z y * z y) / (2 * (s y * s y)))). apply (ddv (fun y => - (z y * z y)) (fun y => 2 * (s y * s y))). nra. apply dop. apply dm; exact Z. apply dcm. apply dm; exact S.
  - cbv beta. set (E := exp _). field. split; lra.
Qed.

(** a peak whose distance, mean square displacement, correction and ratio change *)
Definition wslope (s sp u' f' phi phi' : R) : R := s / sp * (u' / (2 * sp)) + (phi * sp) * (phi * sp) / (2 * s) * f' + s / phi * phi'.
Lemma dpeak (r u f phi : R -> R) x r' u' f' phi' rk : 0 < u x -> 0 < f x -> 0 < phi x -> dl r x r' -> dl u x u' -> dl f x f' -> dl phi x phi' ->
  let sp := sqrt (u x) in let s := sp * sqrt (f x) * phi x in
  dl (fun y => normal (sqrt (u y) * sqrt (f y) * phi y) (rk - r y)) x
     (normal s (rk - r x) * (((rk - r x) / s * ((rk - r x) / s) - 1) / s * wslope s sp u' f' (phi x) phi' + (rk - r x) / (s * s) * r')).
Proof.
  intros U F P Dr Du Df Dp sp s. pose proof (sqrt_lt_R0 _ U) as SU. pose proof (sqrt_lt_R0 _ F) as SF.
  assert (S : 0 < s). { apply Rmult_lt_0_compat; auto. apply Rmult_lt_0_compat; auto. }
  eapply dl_eq.
  - apply (dnormal (fun y => sqrt (u y) * sqrt (f y) * phi y) (fun y => rk - r y)). exact S.
    apply (dm (fun y => sqrt (u y) * sqrt (f y)) phi). apply (dm (fun y => sqrt (u y)) (fun y => sqrt (f y))). apply dsq; eauto. apply dsq; eauto. exact Dp.
    apply dmi. apply dlim_const. exact Dr.
  - cbv beta. fold sp. fold s. set (z := rk - r x). unfold wslope.
    assert (E1 : (u' / (2 * sp) * sqrt (f x) + sp * (f' / (2 * sqrt (f x)))) * phi x + sp * sqrt (f x) * phi' = s / sp * (u' / (2 * sp)) + phi x * sp * (phi x * sp) / (2 * s) * f' + s / phi x * phi').
    { unfold s. field. unfold sp in *. repeat split; lra. }
    rewrite E1. unfold Rminus. rewrite Rplus_0_l. set (A := s / sp * _ + _ + _). field. lra.
Qed.

(** distance and displacement of a vector in an orthogonal system *)
Definition quad (U : nat -> R) (e0 e1 e2 : R) : R :=
  U 0%nat * (e0 * e0) + U 1%nat * (e1 * e1) + U 2%nat * (e2 * e2) + 2 * U 3%nat * (e0 * e1) + 2 * U 4%nat * (e0 * e2) + 2 * U 5%nat * (e1 * e2).
Lemma dlen (e0 e1 e2 : R -> R) x d0 d1 d2 : 0 < e0 x * e0 x + e1 x * e1 x + e2 x * e2 x -> dl e0 x d0 -> dl e1 x d1 -> dl e2 x d2 ->
  let r := sqrt (e0 x * e0 x + e1 x * e1 x + e2 x * e2 x) in
  dl (fun y => sqrt (e0 y * e0 y + e1 y * e1 y + e2 y * e2 y)) x ((e0 x * d0 + e1 x * d1 + e2 x * d2) / r).
Proof.
  intros P D0 D1 D2 r. eapply dl_eq. apply (dsq (fun y => e0 y * e0 y + e1 y * e1 y + e2 y * e2 y)). auto. apply dp. apply dp. apply dm; eauto. apply dm; eauto. apply dm; eauto.
  cbv beta. fold r. assert (0 < r) by (apply sqrt_lt_R0; auto). field. lra.
Qed.
Lemma dquad U (e0 e1 e2 : R -> R) x d0 d1 d2 : 0 < e0 x * e0 x + e1 x * e1 x + e2 x * e2 x -> dl e0 x d0 -> dl e1 x d1 -> dl e2 x d2 ->
  let r := sqrt (e0 x * e0 x + e1 x * e1 x + e2 x * e2 x) in
  let S := (e0 x * U 0%nat + e1 x * U 3%nat + e2 x * U 4%nat) * d0 + (e0 x * U 3%nat + e1 x * U 1%nat + e2 x * U 5%nat) * d1 + (e0 x * U 4%nat + e1 x * U 5%nat + e2 x * U 2%nat) * d2 in
  dl (fun y => quad U (e0 y) (e1 y) (e2 y) / (e0 y * e0 y + e1 y * e1 y + e2 y * e2 y)) x
     (2 * (S / (r * r) - quad U (e0 x) (e1 x) (e2 x) / (r * r) * ((e0 x * d0 + e1 x * d1 + e2 x * d2) / r) / r)).
Proof.
  intros P D0 D1 D2 r S. assert (RP : 0 < r) by (apply sqrt_lt_R0; auto). assert (RR : r * r = e0 x * e0 x + e1 x * e1 x + e2 x * e2 x) by (apply sqrt_sqrt; lra).
  eapply dl_eq. apply (ddv (fun y => quad U (e0 y) (e1 y) (e2 y)) (fun y => e0 y * e0 y + e1 y * e1 y + e2 y * e2 y)). lra.
  unfold quad. repeat apply dp; repeat apply dcm; apply dm; eauto. apply dp. apply dp. apply dm; eauto. apply dm; eauto. apply dm; eauto.
  cbv beta. rewrite <- RR. unfold S, quad. field. lra.
Qed.
