(** Finite sums of real numbers. *)
From Coq Require Import List Arith Reals Lra Lia.
Import ListNotations.
Local Open Scope R_scope.

(** f 0 + ... + f (n-1) *)
Fixpoint rsum (n : nat) (f : nat -> R) : R :=
  match n with O => 0 | S m => rsum m f + f m end.

Lemma rsum_ext n f g : (forall i, (i < n)%nat -> f i = g i) -> rsum n f = rsum n g.
Proof.
  induction n; simpl; intros H; auto. rewrite IHn, H; auto.
Qed.

Lemma rsum_plus n f g : rsum n (fun i => f i + g i) = rsum n f + rsum n g.
Proof. induction n; simpl. lra. rewrite IHn. lra. Qed.

Lemma rsum_minus n f g : rsum n (fun i => f i - g i) = rsum n f - rsum n g.
Proof. induction n; simpl. lra. rewrite IHn. lra. Qed.

Lemma rsum_scal n c f : rsum n (fun i => c * f i) = c * rsum n f.
Proof. induction n; simpl. lra. rewrite IHn. lra. Qed.

Lemma rsum_scal_r n c f : rsum n (fun i => f i * c) = rsum n f * c.
Proof. induction n; simpl. lra. rewrite IHn. lra. Qed.

Lemma rsum_zero n f : (forall i, (i < n)%nat -> f i = 0) -> rsum n f = 0.
Proof. induction n; simpl; intros H; auto. rewrite IHn, H; auto. lra. Qed.

Lemma rsum_nonneg n f : (forall i, (i < n)%nat -> 0 <= f i) -> 0 <= rsum n f.
Proof.
  induction n; simpl; intros H. lra. assert (0 <= f n) by auto. assert (0 <= rsum n f) by auto. lra.
Qed.

Lemma rsum_le n f g : (forall i, (i < n)%nat -> f i <= g i) -> rsum n f <= rsum n g.
Proof.
  induction n; simpl; intros H. lra. assert (f n <= g n) by auto. assert (rsum n f <= rsum n g) by auto. lra.
Qed.

Lemma rsum_split n m f : rsum (n + m) f = rsum n f + rsum m (fun i => f (n + i)%nat).
Proof.
  induction m; simpl. rewrite Nat.add_0_r. lra. rewrite Nat.add_succ_r. simpl. rewrite IHm. lra.
Qed.

Lemma rsum_swap n m f : rsum n (fun i => rsum m (f i)) = rsum m (fun j => rsum n (fun i => f i j)).
Proof.
  induction n; simpl. rewrite rsum_zero; auto. rewrite IHn. rewrite <- rsum_plus. auto.
Qed.

(** only term k is nonzero *)
Lemma rsum_single n f k : (k < n)%nat -> (forall i, (i < n)%nat -> i <> k -> f i = 0) -> rsum n f = f k.
Proof.
  induction n; simpl; intros Hk H; [lia|]. destruct (Nat.eq_dec k n).
  - subst. rewrite rsum_zero. lra. intros. apply H; lia.
  - rewrite IHn by (try lia; intros; apply H; lia). rewrite (H n) by lia. lra.
Qed.

Lemma fold_rsum (f : nat -> R) n c : fold_left (fun s k => s + f k) (seq 0 n) c = c + rsum n f.
Proof.
  induction n. simpl. lra. rewrite seq_S, fold_left_app, IHn. simpl. lra.
Qed.

(** sums over lists *)
Definition lsum {A} (f : A -> R) (l : list A) : R := fold_right (fun a s => f a + s) 0 l.

Lemma lsum_app {A} (f : A -> R) l1 l2 : lsum f (l1 ++ l2) = lsum f l1 + lsum f l2.
Proof. induction l1; simpl. lra. unfold lsum in *. simpl. rewrite IHl1. lra. Qed.

Lemma lsum_ext {A} (f g : A -> R) l : (forall a, In a l -> f a = g a) -> lsum f l = lsum g l.
Proof. induction l; unfold lsum in *; simpl; intros H; auto. rewrite H, IHl; auto. Qed.

Lemma fold_lsum {A} (f : A -> R) l c : fold_left (fun s a => s + f a) l c = c + lsum f l.
Proof. revert c; induction l; unfold lsum in *; simpl; intros. lra. rewrite IHl. lra. Qed.

Lemma lsum_seq f n : lsum f (seq 0 n) = rsum n f.
Proof.
  induction n; auto. rewrite seq_S, lsum_app, IHn. unfold lsum. simpl. lra.
Qed.

Lemma lsum_plus {A} (f g : A -> R) l : lsum (fun a => f a + g a) l = lsum f l + lsum g l.
Proof. induction l; unfold lsum in *; simpl. lra. rewrite IHl. lra. Qed.

Lemma lsum_scal {A} c (f : A -> R) l : lsum (fun a => c * f a) l = c * lsum f l.
Proof. induction l; unfold lsum in *; simpl. lra. rewrite IHl. lra. Qed.

Lemma lsum_nonneg {A} (f : A -> R) l : (forall a, In a l -> 0 <= f a) -> 0 <= lsum f l.
Proof.
  induction l; unfold lsum in *; simpl; intros H. lra.
  assert (0 <= f a) by auto. assert (0 <= fold_right (fun a s => f a + s) 0 l) by auto. lra.
Qed.
