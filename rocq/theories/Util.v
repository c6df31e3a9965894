(** Small lemmas about outcomes and lists shared by the proof files. *)
From Coq Require Import List Lia Arith.
From Verif Require Import Base.
Import ListNotations.

Lemma obind_ok {A B} (o : outcome A) (f : A -> outcome B) y :
  obind o f = Ok y -> exists x, o = Ok x /\ f x = Ok y.
Proof. destruct o; simpl; intros; try discriminate. eauto. Qed.

Lemma omap_ok {A B} (f : A -> B) (o : outcome A) y :
  omap f o = Ok y -> exists x, o = Ok x /\ y = f x.
Proof. destruct o; simpl; intros H; try discriminate. inversion H. eauto. Qed.

Lemma Forall2_nth_r {A B} (R : A -> B -> Prop) l l' i b : Forall2 R l l' -> nth_error l' i = Some b ->
  exists a, nth_error l i = Some a /\ R a b.
Proof.
  intros H. revert i. induction H; intros [|i]; simpl; intros E; try discriminate.
  - inversion E; subst. eauto.
  - eauto.
Qed.

Lemma Forall2_nth_l {A B} (R : A -> B -> Prop) l l' i a : Forall2 R l l' -> nth_error l i = Some a ->
  exists b, nth_error l' i = Some b /\ R a b.
Proof.
  intros H. revert i. induction H; intros [|i]; simpl; intros E; try discriminate.
  - inversion E; subst. eauto.
  - eauto.
Qed.

Lemma firstn_S_nth {A} (l : list A) i x : nth_error l i = Some x -> firstn (S i) l = firstn i l ++ [x].
Proof.
  revert i; induction l as [|y l IH]; intros [|i]; simpl; intros H; try discriminate.
  - congruence.
  - f_equal. exact (IH i H).
Qed.

Lemma Forall_nth_error {A} (P : A -> Prop) l i x : Forall P l -> nth_error l i = Some x -> P x.
Proof. rewrite Forall_forall. intros H E. apply H. eapply nth_error_In; eauto. Qed.
