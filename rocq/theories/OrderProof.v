(** Proofs about order_by_id. *)
From Coq Require Import List ZArith Bool Lia Permutation Sorting.Sorted.
From Verif Require Import Base ParamModel ParamProof OrderModel.
Import ListNotations.
Local Open Scope Z_scope.

Lemma insert_perm x l : Permutation (x :: l) (insert x l).
Proof.
  induction l as [|y r IH]; simpl; auto. destruct (pair_lt y x); auto.
  eapply perm_trans; [apply perm_swap|]. auto.
Qed.
Lemma sort_perm l : Permutation l (sort_pairs l).
Proof.
  induction l as [|x r IH]; simpl; auto. eapply perm_trans; [|apply insert_perm]. auto.
Qed.

Definition ple (a b : Z * nat) : Prop := fst a <= fst b.
Lemma insert_sorted x l : StronglySorted ple l -> StronglySorted ple (insert x l).
Proof.
  induction l as [|y r IH]; simpl; intros H. constructor; constructor.
  inversion H as [|a b Hs Hf]; subst. destruct (pair_lt y x) eqn:E.
  - constructor; auto. unfold pair_lt in E. apply Forall_forall. intros z Hz.
    apply (Permutation_in _ (Permutation_sym (insert_perm x r))) in Hz. destruct Hz as [<-|Hz].
    + unfold ple. apply orb_true_iff in E. destruct E as [E|E]. apply Z.ltb_lt in E. lia.
      apply andb_true_iff in E. destruct E as [E _]. apply Z.eqb_eq in E. lia.
    + rewrite Forall_forall in Hf. auto.
  - assert (Q : ple x y). { unfold ple. unfold pair_lt in E. apply orb_false_iff in E. destruct E as [E _]. apply Z.ltb_ge in E. lia. }
    constructor; auto. constructor; auto. rewrite Forall_forall in Hf |- *. intros z Hz. unfold ple in *. specialize (Hf z Hz). lia.
Qed.
Lemma sort_sorted l : StronglySorted ple (sort_pairs l).
Proof. induction l; simpl. constructor. apply insert_sorted; auto. Qed.

Lemma map_snd_combine {A B} (l : list A) (m : list B) : length l = length m -> map snd (combine l m) = m.
Proof. revert m. induction l; destruct m; simpl; intros; try discriminate; auto. f_equal. auto. Qed.

Lemma combine_seq_nth {A} (l : list A) k a i : In (a, i) (combine l (seq k (length l))) -> (k <= i)%nat /\ nth_error l (i - k) = Some a.
Proof.
  revert k. induction l as [|x r IH]; simpl; intros k H; [tauto|]. destruct H as [H|H].
  - inversion H; subst. rewrite Nat.sub_diag. auto.
  - apply IH in H. destruct H as [H1 H2]. split. lia. replace (i - k)%nat with (S (i - S k)) by lia. auto.
Qed.

Section S.
Context {T : Type}.
Variable t : ptab T.

Lemma order_permutation : Permutation (seq 0 (length (pid t))) (order_by_id t).
Proof.
  unfold order_by_id. eapply perm_trans; [|apply Permutation_map, sort_perm].
  rewrite map_snd_combine; auto. rewrite seq_length. auto.
Qed.

Lemma order_ids : map (fun i => nth_error (pid t) i) (order_by_id t) =
  map (fun q => Some (fst q)) (sort_pairs (combine (pid t) (seq 0 (length (pid t))))).
Proof.
  unfold order_by_id. rewrite map_map. apply map_ext_in. intros [a i] H. simpl.
  apply (Permutation_in _ (Permutation_sym (sort_perm _))) in H. apply combine_seq_nth in H. rewrite Nat.sub_0_r in H. tauto.
Qed.

Lemma order_nondecreasing j k i1 i2 a b : (j < k)%nat ->
  nth_error (order_by_id t) j = Some i1 -> nth_error (order_by_id t) k = Some i2 ->
  nth_error (pid t) i1 = Some a -> nth_error (pid t) i2 = Some b -> a <= b.
Proof.
  intros JK H1 H2 A B. pose proof (sort_sorted (combine (pid t) (seq 0 (length (pid t))))) as S. pose proof order_ids as Q.
  set (L := sort_pairs (combine (pid t) (seq 0 (length (pid t))))) in *.
  assert (G : forall n i x, nth_error (order_by_id t) n = Some i -> nth_error (pid t) i = Some x -> exists q, nth_error L n = Some q /\ fst q = x).
  { intros n i x N X. apply (f_equal (fun l => nth_error l n)) in Q. rewrite !nth_error_map, N in Q. simpl in Q. rewrite X in Q.
    destruct (nth_error L n) as [q|]; simpl in Q; inversion Q. exists q. auto. }
  destruct (G _ _ _ H1 A) as (q1 & N1 & <-). destruct (G _ _ _ H2 B) as (q2 & N2 & <-). clear - JK S N1 N2. clearbody L.
  revert j k JK N1 N2. induction S as [|x l S IH F]; intros j k JK N1 N2. destruct j; discriminate.
  destruct k as [|k]; [lia|]. destruct j as [|j]; simpl in N1, N2.
  - inversion N1; subst. apply nth_error_In in N2. rewrite Forall_forall in F. exact (F _ N2).
  - apply (IH j k); auto. lia.
Qed.
End S.

Lemma order_spec {T} (h : list (pop T)) :
  let t := prun ptab_init h in
  Permutation (seq 0 (length (pid t))) (order_by_id t) /\
  forall j k i1 i2 a b, (j < k)%nat ->
    nth_error (order_by_id t) j = Some i1 -> nth_error (order_by_id t) k = Some i2 ->
    nth_error (pid t) i1 = Some a -> nth_error (pid t) i2 = Some b -> a < b.
Proof.
  intros t. split. apply order_permutation. intros j k i1 i2 a b JK H1 H2 A B.
  assert (LE := order_nondecreasing t _ _ _ _ _ _ JK H1 H2 A B). destruct (Z.eq_dec a b) as [->|]; [|lia]. exfalso.
  destruct (wf_run h) as (_ & _ & ND). fold t in ND.
  assert (i1 = i2). { eapply (proj1 (NoDup_nth_error (pid t)) ND). apply nth_error_Some. congruence. congruence. } subst i2.
  assert (NO : NoDup (order_by_id t)). { eapply Permutation_NoDup. apply order_permutation. apply seq_NoDup. }
  assert (j = k). { eapply (proj1 (NoDup_nth_error _) NO). apply nth_error_Some. congruence. congruence. } lia.
Qed.
