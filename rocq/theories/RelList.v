(** Proofs: ways to relist a phase. *)
From Coq Require Import List Arith ZArith Reals Bool Lia Lra Permutation.
From Verif Require Import Base RSum MetricModel PdfModel PdfSpec RelSpec RelProof.
Import ListNotations.
Local Open Scope R_scope.

Definition no_v : v3 := fun _ => 0.
Lemma moved_self icc a o : moved icc no_v a (with_occ a o).
Proof. repeat split; auto. intros k _. exists 0%Z. cbn. unfold no_v. ring. Qed.
Lemma with_own a : with_occ a (at_occ a) = a. Proof. destruct a; reflexivity. Qed.
Lemma moved_id icc a : moved icc no_v a a. Proof. rewrite <- (with_own a) at 2. apply moved_self. Qed.

(** a bijection adds up *)
Lemma bij_occ n (m : nat -> nat) (o o' : nat -> R) : (forall x, (x < n)%nat -> (m x < n)%nat) -> (forall x y, (x < n)%nat -> (y < n)%nat -> m x = m y -> x = y) ->
  (forall x, (x < n)%nat -> o' x = o (m x)) -> forall i, (i < n)%nat -> o i = rsum n (fun x => if (m x =? i)%nat then o' x else 0).
Proof.
  intros M I O i Hi. rewrite (rsum_ext n _ (fun x => (fun j => if (j =? i)%nat then o j else 0) (m x))) by (intros; rewrite O by auto; auto).
  rewrite (rsum_bij n m M I (fun j => if (j =? i)%nat then o j else 0)). rewrite (rsum_single n _ i); auto. rewrite Nat.eqb_refl; auto. intros j _ D. destruct (Nat.eqb_spec j i); congruence.
Qed.
Lemma reordered_relisted e e' : reordered e e' -> relisted e e'.
Proof.
  intros (E & P). set (p := en_ph e) in *. set (p' := en_ph e') in *. set (n := natoms p).
  assert (LL : natoms p' = n). { apply Permutation_length in P. unfold sites in P. rewrite !map_length, !seq_length in P. auto. }
  set (f i := (atom_no p i, en_igni e i, en_ignj e i)). set (f' i := (atom_no p' i, en_igni e' i, en_ignj e' i)).
  apply (Permutation_nth _ _ (f 0%nat)) in P. destruct P as (_ & m & B & I & H). unfold sites in *. rewrite map_length, seq_length in *. fold p n in B, I, H. fold p' in H. rewrite LL in H.
  assert (S : forall x, (x < n)%nat -> f' x = f (m x)).
  { intros x Hx. specialize (H x Hx). fold f f' in H. rewrite (map_nth f), seq_nth in H by (apply B; auto). cbn in H. rewrite <- H.
    rewrite (nth_indep _ _ (f' 0%nat)) by (rewrite map_length, seq_length; auto). rewrite (map_nth f'), seq_nth by auto. reflexivity. }
  assert (S1 : forall x, (x < n)%nat -> atom_no p' x = atom_no p (m x)) by (intros x Hx; specialize (S x Hx); unfold f, f' in S; congruence).
  exists m, no_v. fold p p'. split.
  - split; auto. rewrite LL. fold n. split.
    + intros x Hx. split. apply B; auto. rewrite S1 by auto. apply moved_id.
    + apply (bij_occ n m (fun i => at_occ (atom_no p i)) (fun x => at_occ (atom_no p' x))); auto. intros x Hx. rewrite S1; auto.
  - right. split; [|split]; fold p p'; rewrite ?LL; auto. intros x Hx. specialize (S x Hx). unfold f, f' in S. split; congruence.
Qed.
Lemma shifted_relisted e e' v : shifted e e' v -> relisted e e'.
Proof.
  intros ((l & E & F) & IG). set (p := en_ph e) in *. exists (fun x => x), v. rewrite E. fold p. cbn [cp_atoms with_atoms].
  assert (LL : natoms (with_atoms p l) = natoms p) by (unfold natoms; cbn; clear -F; induction F; cbn; auto).
  assert (A : forall x, (x < natoms p)%nat -> at_u (atom_no (with_atoms p l) x) = at_u (atom_no p x) /\ at_sf (atom_no (with_atoms p l) x) = at_sf (atom_no p x) /\
    at_occ (atom_no (with_atoms p l) x) = at_occ (atom_no p x) /\ forall k, (k < 3)%nat -> at_pos (atom_no (with_atoms p l) x) k = at_pos (atom_no p x) k + v k).
  { clear -F. unfold natoms, atom_no. cbn [cp_atoms with_atoms]. induction F as [|a a' q q' R F IH]; intros x Hx; cbn in Hx; [lia|]. destruct x; cbn; auto. apply IH. lia. }
  split.
  - split; [reflexivity|]. rewrite LL. split.
    + intros x Hx. split; auto. destruct (A x Hx) as (U & S & _ & P). repeat split; auto. intros k Hk. exists 0%Z. rewrite P by auto. ring.
    + apply (bij_occ (natoms p) (fun x => x) (fun i => at_occ (atom_no p i)) (fun x => at_occ (atom_no (with_atoms p l) x))); auto. intros x Hx. apply A; auto.
  - right. split; [|split]; rewrite ?E; fold p; rewrite ?LL; auto.
Qed.
Lemma rsum_two n f a b : a <> b -> (a < n)%nat -> (b < n)%nat -> (forall x, (x < n)%nat -> x <> a -> x <> b -> f x = 0) -> rsum n f = f a + f b.
Proof.
  intros D A B Z. rewrite (rsum_ext n f (fun x => (if (a =? x)%nat then f x else 0) + (if (b =? x)%nat then f x else 0))).
  - rewrite rsum_plus, !rsum_pick; auto.
  - intros x Hx. destruct (Nat.eqb_spec a x), (Nat.eqb_spec b x); subst; try congruence; try lra. rewrite Z by auto. lra.
Qed.
Lemma split_relisted e e' : site_split e e' -> relisted e e'.
Proof.
  intros (A & A' & l1 & a & o & l2 & E & E'). set (k := length l1). exists (fun x => if (x <=? k)%nat then x else (x - 1)%nat), no_v. split; auto. rewrite E'. set (p := en_ph e) in *.
  set (l := l1 ++ _ :: _ :: l2). 
  assert (LN : natoms p = (k + S (length l2))%nat) by (unfold natoms; rewrite E, app_length; reflexivity).
  assert (LN' : natoms (with_atoms p l) = S (natoms p)) by (unfold natoms at 1; cbn [cp_atoms with_atoms]; unfold l; rewrite app_length, LN; cbn; fold k; lia).
  assert (X1 : forall x, (x < k)%nat -> atom_no (with_atoms p l) x = atom_no p x) by (intros x Hx; unfold atom_no; cbn [cp_atoms with_atoms]; rewrite E; unfold l; rewrite !app_nth1 by auto; auto).
  assert (X0 : atom_no p k = a) by (unfold atom_no; rewrite E, app_nth2, Nat.sub_diag by auto; reflexivity).
  assert (X2 : atom_no (with_atoms p l) k = with_occ a o) by (unfold atom_no; cbn [cp_atoms with_atoms]; unfold l; rewrite app_nth2, Nat.sub_diag by auto; reflexivity).
  assert (X3 : atom_no (with_atoms p l) (S k) = with_occ a (at_occ a - o)) by (unfold atom_no; cbn [cp_atoms with_atoms]; unfold l; rewrite app_nth2 by (fold k; lia); replace (S k - length l1)%nat with 1%nat by (fold k; lia); reflexivity).
  assert (X4 : forall x, (S k < x)%nat -> atom_no (with_atoms p l) x = atom_no p (x - 1)).
  { intros x Hx. unfold atom_no; cbn [cp_atoms with_atoms]. rewrite E. unfold l. rewrite !app_nth2 by (fold k; lia). fold k. replace (x - k)%nat with (S (S (x - k - 2))) by lia. replace (x - 1 - k)%nat with (S (x - k - 2)) by lia. reflexivity. }
  split; [reflexivity|split].
  - intros x Hx. rewrite LN' in Hx. destruct (Nat.leb_spec x k). split. lia. destruct (Nat.eq_dec x k) as [->|]. rewrite X2, X0. apply moved_self. rewrite X1 by lia. apply moved_id.
    split. lia. destruct (Nat.eq_dec x (S k)) as [->|]. replace (S k - 1)%nat with k by lia. rewrite X3, X0. apply moved_self. rewrite X4 by lia. apply moved_id.
  - intros i Hi. rewrite LN'. destruct (lt_eq_lt_dec i k) as [[D|D]|D].
    + rewrite (rsum_single _ _ i); try lia. rewrite (proj2 (Nat.leb_le i k)), Nat.eqb_refl, X1 by lia. auto. intros x Hx Dx. destruct (Nat.leb_spec x k). destruct (Nat.eqb_spec x i); auto; lia. destruct (Nat.eqb_spec (x - 1) i); auto; lia.
    + subst i. rewrite (rsum_two _ _ k (S k)); try lia. rewrite (proj2 (Nat.leb_le k k)), Nat.eqb_refl, X2 by lia. rewrite (proj2 (Nat.leb_gt (S k) k)) by lia. replace (S k - 1)%nat with k by lia. rewrite Nat.eqb_refl, X3, X0. cbn. ring.
      intros x Hx D1 D2. destruct (Nat.leb_spec x k). destruct (Nat.eqb_spec x k); auto; lia. destruct (Nat.eqb_spec (x - 1) k); auto; lia.
    + rewrite (rsum_single _ _ (S i)); try lia. rewrite (proj2 (Nat.leb_gt (S i) k)) by lia. rewrite X4 by lia. replace (S i - 1)%nat with i by lia. rewrite Nat.eqb_refl. auto.
      intros x Hx Dx. destruct (Nat.leb_spec x k). destruct (Nat.eqb_spec x i); auto; lia. destruct (Nat.eqb_spec (x - 1) i); auto; lia.
Qed.
Lemma dropped_relisted e e' : empty_dropped e e' -> relisted e e'.
Proof.
  intros (A & A' & l1 & a & l2 & E & Z & E'). set (k := length l1). exists (fun x => if (x <? k)%nat then x else S x), no_v. split; auto. rewrite E'. set (p := en_ph e) in *.
  set (l := l1 ++ l2).
  assert (LN : natoms p = (k + S (length l2))%nat) by (unfold natoms; rewrite E, app_length; reflexivity).
  assert (LN' : natoms (with_atoms p l) = (k + length l2)%nat) by (unfold natoms; cbn [cp_atoms with_atoms]; unfold l; rewrite app_length; auto).
  assert (X1 : forall x, (x < k)%nat -> atom_no (with_atoms p l) x = atom_no p x) by (intros x Hx; unfold atom_no; cbn [cp_atoms with_atoms]; rewrite E; unfold l; rewrite !app_nth1 by auto; auto).
  assert (X0 : atom_no p k = a) by (unfold atom_no; rewrite E, app_nth2, Nat.sub_diag by auto; reflexivity).
  assert (X4 : forall x, (k <= x)%nat -> atom_no (with_atoms p l) x = atom_no p (S x)).
  { intros x Hx. unfold atom_no; cbn [cp_atoms with_atoms]. rewrite E. unfold l. rewrite !app_nth2 by (fold k; lia). fold k. replace (S x - k)%nat with (S (x - k)) by lia. reflexivity. }
  split; [reflexivity|split].
  - intros x Hx. rewrite LN' in Hx. destruct (Nat.ltb_spec x k). split. lia. rewrite X1 by lia. apply moved_id. split. lia. rewrite X4 by lia. apply moved_id.
  - intros i Hi. rewrite LN'. destruct (lt_eq_lt_dec i k) as [[D|D]|D].
    + rewrite (rsum_single _ _ i); try lia. rewrite (proj2 (Nat.ltb_lt i k)), Nat.eqb_refl, X1 by lia. auto. intros x Hx Dx. destruct (Nat.ltb_spec x k). destruct (Nat.eqb_spec x i); auto; lia. destruct (Nat.eqb_spec (S x) i); auto; lia.
    + subst i. rewrite X0, Z. rewrite rsum_zero; auto. intros x Hx. destruct (Nat.ltb_spec x k). destruct (Nat.eqb_spec x k); auto; lia. destruct (Nat.eqb_spec (S x) k); auto; lia.
    + rewrite (rsum_single _ _ (i - 1)); try lia. rewrite (proj2 (Nat.ltb_ge (i - 1) k)) by lia. rewrite X4 by lia. replace (S (i - 1))%nat with i by lia. rewrite Nat.eqb_refl. auto.
      intros x Hx Dx. destruct (Nat.ltb_spec x k). destruct (Nat.eqb_spec x i); auto; lia. destruct (Nat.eqb_spec (S x) i); auto; lia.
Qed.
