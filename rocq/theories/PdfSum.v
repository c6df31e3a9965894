(** Sums over pairs: the half loop counts every ordered pair once. *)
From Coq Require Import List Arith ZArith Reals Bool Lia Lra Permutation.
From Verif Require Import Base RSum MathModel MetricModel PdfModel PdfSpec PdfProof PdfGeo.
Import ListNotations.
Local Open Scope R_scope.

Lemma nodup_flat_map A B (f : A -> list B) : forall l, NoDup l -> (forall a, In a l -> NoDup (f a)) ->
  (forall a b x, In a l -> In b l -> In x (f a) -> In x (f b) -> a = b) -> NoDup (flat_map f l).
Proof.
  induction l as [|a l IH]; simpl; intros N F D. constructor. inversion N; subst.
  assert (X : forall l1 l2 : list B, NoDup l1 -> NoDup l2 -> (forall b, In b l1 -> ~ In b l2) -> NoDup (l1 ++ l2)).
  { clear. induction l1; simpl; intros l2 N1 N2 H; auto. inversion N1; subst. constructor. rewrite in_app_iff. intros [?|?]; auto. apply (H a); auto. apply IHl1; auto. }
  apply X; auto.
  - apply IH; auto. intros x y z Hx Hy. apply D; auto.
  - intros b Hb Hf. apply in_flat_map in Hf. destruct Hf as (c & Hc & Hb'). assert (a = c) by (apply (D a c b); auto). subst. contradiction.
Qed.
Lemma lsum_perm A (f : A -> R) l l' : Permutation l l' -> lsum f l = lsum f l'.
Proof. induction 1; unfold lsum in *; simpl in *; lra. Qed.
Lemma lsum_flat A B (f : A -> list B) (g : B -> R) l : lsum g (flat_map f l) = lsum (fun a => lsum g (f a)) l.
Proof. induction l; simpl. reflexivity. rewrite lsum_app, IHl. reflexivity. Qed.
Lemma lsum_map A B (f : A -> B) (g : B -> R) l : lsum g (map f l) = lsum (fun a => g (f a)) l.
Proof. induction l; unfold lsum in *; simpl; auto. rewrite IHl. reflexivity. Qed.
Lemma lsum_cons A (f : A -> R) a l : lsum f (a :: l) = f a + lsum f l. Proof. reflexivity. Qed.
Lemma lsum_nil A (f : A -> R) : lsum f [] = 0. Proof. reflexivity. Qed.

Lemma half_in n i j : In (i, j) (half_loop n) <-> (i <= j < n)%nat.
Proof.
  unfold half_loop. rewrite in_flat_map. split.
  - intros (x & Hx & H). apply in_map_iff in H. destruct H as (y & E & Hy). inversion E; subst. apply in_seq in Hx, Hy. lia.
  - intros H. exists i. split. apply in_seq. lia. apply in_map_iff. exists j. split; auto. apply in_seq. lia.
Qed.
Lemma half_nodup n : NoDup (half_loop n).
Proof.
  apply nodup_flat_map. apply seq_NoDup.
  - intros i _. apply FinFun.Injective_map_NoDup. intros x y E. inversion E; auto. apply seq_NoDup.
  - intros a b [x y] _ _ Ha Hb. apply in_map_iff in Ha, Hb. destruct Ha as (? & E & _), Hb as (? & E' & _). congruence.
Qed.

Definition both (ij : nat * nat) : list (nat * nat) := let (i, j) := ij in if (i =? j)%nat then [(i, i)] else [(i, j); (j, i)].
Lemma both_in ij x : In x (both ij) <-> x = ij \/ x = (snd ij, fst ij).
Proof.
  destruct ij as [i j]. unfold both. destruct (Nat.eqb_spec i j); subst; simpl; split; intros; intuition (subst; auto).
Qed.
Lemma both_perm n : Permutation (flat_map both (half_loop n)) (list_prod (seq 0 n) (seq 0 n)).
Proof.
  apply NoDup_Permutation.
  - apply nodup_flat_map. apply half_nodup.
    + intros [i j] _. unfold both. destruct (Nat.eqb_spec i j). repeat constructor; auto.
      constructor. simpl. intros [E|[]]. inversion E; subst; contradiction. repeat constructor; auto.
    + intros [i j] [i' j'] x Ha Hb Xa Xb. apply half_in in Ha, Hb. apply both_in in Xa, Xb. simpl in *.
      destruct Xa as [->| ->], Xb as [E|E]; inversion E; subst; auto; f_equal; lia.
  - assert (X : forall l : list nat, NoDup l -> NoDup (list_prod l l)).
    { intros l N. 
      assert (E : forall l1 l2 : list nat, list_prod l1 l2 = flat_map (fun x => map (fun y => (x, y)) l2) l1) by (induction l1; simpl; intros; auto; rewrite IHl1; auto).
      rewrite E. apply nodup_flat_map; auto. intros. apply FinFun.Injective_map_NoDup; auto. intros x y H'. inversion H'; auto.
      intros a b [x y] _ _ Ha Hb. apply in_map_iff in Ha, Hb. destruct Ha as (? & ? & _), Hb as (? & ? & _). congruence. }
    apply X, seq_NoDup.
  - intros [i j]. rewrite in_flat_map, in_prod_iff, !in_seq. split.
    + intros ([a b] & Ha & Hb). apply half_in in Ha. apply both_in in Hb. simpl in Hb. destruct Hb as [E|E]; inversion E; subst; lia.
    + intros H. destruct (le_lt_dec i j).
      * exists (i, j). split. apply half_in. lia. apply both_in. auto.
      * exists (j, i). split. apply half_in. lia. apply both_in. auto.
Qed.
Lemma lsum_prod (f : nat -> nat -> R) n m : lsum (fun ij => f (fst ij) (snd ij)) (list_prod (seq 0 n) (seq 0 m)) = rsum n (fun i => rsum m (f i)).
Proof.
  rewrite <- lsum_seq. assert (E : forall l1 l2 : list nat, list_prod l1 l2 = flat_map (fun x => map (fun y => (x, y)) l2) l1) by (induction l1; simpl; intros; auto; rewrite IHl1; auto).
  rewrite E, lsum_flat. apply lsum_ext. intros a _. rewrite lsum_map. simpl. apply (lsum_seq (f a)).
Qed.

(** the half loop with weight 2 off the diagonal is the sum over ordered pairs *)
Lemma half_ordered n (f : nat -> nat -> R) : (forall i j, (i < n)%nat -> (j < n)%nat -> f i j = f j i) ->
  lsum (fun ij : nat * nat => (if (fst ij =? snd ij)%nat then 1 else 2) * f (fst ij) (snd ij)) (half_loop n) = rsum n (fun i => rsum n (f i)).
Proof.
  intros S. rewrite <- lsum_prod, <- (lsum_perm _ _ _ _ (both_perm n)), lsum_flat. apply lsum_ext. intros [i j] H. apply half_in in H. unfold both. simpl.
  destruct (Nat.eqb_spec i j) as [->|N].
  - unfold lsum; simpl. lra.
  - unfold lsum; simpl. rewrite (S j i) by lia. lra.
Qed.

Lemma skip_counted gi gj i j : skip_pair gi gj i j = negb (counted gi gj i j).
Proof. unfold skip_pair, counted. destruct (gi i), (gj j), (gi j), (gj i); reflexivity. Qed.
Lemma counted_sym gi gj i j : counted gi gj i j = counted gi gj j i.
Proof. unfold counted. apply orb_comm. Qed.

Lemma fold_nadd A (f : A -> R) (l : list A) : forall (step : num -> A -> num) x,
  (forall s a, In a l -> step (Some s) a = Some (s + f a)) -> fold_left step l (Some x) = Some (x + lsum f l).
Proof.
  induction l as [|a l IH]; intros step x H; cbn [fold_left]. rewrite lsum_nil. f_equal. lra.
  rewrite H by (left; auto). rewrite IH by (intros; apply H; right; auto). rewrite lsum_cons. f_equal. lra.
Qed.

Lemma rsum_sq n (f : nat -> R) : rsum n (fun i => rsum n (fun j => f i * f j)) = rsum n f * rsum n f.
Proof.
  transitivity (rsum n (fun i => f i * rsum n f)). apply rsum_ext. intros i _. exact (rsum_scal n (f i) f). exact (rsum_scal_r n (rsum n f) f).
Qed.

Lemma pair_norm_ok gi gj (w : list R) : let W i := nth i w 0 in let n := length w in rsum n W <> 0 ->
  pair_norm gi gj (map Some w) = Some (rsum n (fun i => rsum n (fun j => if counted gi gj i j then W i * W j else 0)) / (rsum n W * rsum n W)).
Proof.
  intros W n NZ. unfold pair_norm. rewrite map_length. fold n.
  assert (V : forall i, (i < n)%nat -> nth i (map Some w) None = Some (W i)).
  { intros i Hi. unfold W. rewrite (nth_indep _ None (Some 0)) by (rewrite map_length; auto). apply map_nth. }
  rewrite (fold_nadd _ (fun ij : nat * nat => (if (fst ij =? snd ij)%nat then 1 else 2) * (if counted gi gj (fst ij) (snd ij) then W (fst ij) * W (snd ij) else 0))).
  2:{ intros s [i j] H. apply half_in in H. rewrite !V by lia. cbn [fst snd nmul nadd]. rewrite skip_counted. destruct (counted gi gj i j); cbn [negb]; f_equal; ring. }
  rewrite (fold_nadd _ (fun ij : nat * nat => (if (fst ij =? snd ij)%nat then 1 else 2) * (W (fst ij) * W (snd ij)))).
  2:{ intros s [i j] H. apply half_in in H. rewrite !V by lia. cbn [fst snd nmul nadd]. f_equal. ring. }
  rewrite (half_ordered n (fun i j => W i * W j)) by (intros; ring).
  rewrite (half_ordered n (fun i j => if counted gi gj i j then W i * W j else 0)) by (intros; rewrite counted_sym; destruct (counted gi gj j i); ring).
  rewrite rsum_sq, !Rplus_0_l. unfold ndiv. destruct (Req_EM_T _ 0) as [Z|Z]; auto. apply Rmult_integral in Z. tauto.
Qed.
