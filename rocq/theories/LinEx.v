(** Refinements with linear parameters, used as examples. *)
From Coq Require Import List Arith Reals Bool Lia Lra.
From Verif Require Import Base RSum GaussModel GaussSpec GaussProof LsModel LsSpec LsProof LsCases LinSpec LinProof LinRun LinFinal.
Import ListNotations.
Local Open Scope R_scope.

(** a straight line at 1, 2, 3: offset and slope free, a second offset fixed at 5;
    the point at 3 counts three times as much as the one at 1 *)
Definition line_ds (y : nat -> R) (p : nat -> R) : dsval :=
  mkDs 1 3 y (fun i => INR i) (fun i => p 1%nat + p 2%nat + p 3%nat * INR i) (fun i c => match c with O | 1%nat => 1 | _ => INR i end).
Definition line (y : nat -> R) : fobj :=
  blank 3 (fun l => if (l =? 2)%nat then 5 else 0) (fun l => negb (l =? 2)%nat) (fun p => Ok [line_ds y p]) (Ok tt).
Definition line0 (y : nat -> R) : list dsval := [line_ds y (f_p (line y))].

Lemma line_sum y f : sum_free (f_ia (line y)) (f_ma (line y)) f = f 1%nat + f 3%nat.
Proof. unfold sum_free, S1. simpl. lra. Qed.
Lemma line_linear y : linear (line y) (line0 y).
Proof.
  split. reflexivity. intros p A. eexists. split. reflexivity. constructor; [|constructor].
  split. reflexivity. split. reflexivity. intros i _. split. reflexivity. split. reflexivity. split. reflexivity. unfold along. rewrite line_sum.
  assert (p 2%nat = 5). { rewrite A. reflexivity. intros [_ F]. discriminate. }
  unfold dpar. cbn [line_ds d_pdf d_fb Nat.sub f_p line blank Nat.eqb]. rewrite H. lra.
Qed.
Lemma line_weights y : weights_ok (line0 y).
Proof. intros d i [<- |[]] _. cbn. apply pos_INR. Qed.
Lemma line_independent y : ~ dependent (line y) (line0 y).
Proof.
  intros (x & (l & [F1 F2] & NZ) & A). pose proof (A _ 1%nat (or_introl eq_refl)) as A1. pose proof (A _ 2%nat (or_introl eq_refl)) as A2.
  rewrite line_sum in A1, A2. unfold dpar in A1, A2. cbn [line_ds d_fb d_w Nat.sub] in A1, A2.
  specialize (A1 ltac:(cbn; auto) ltac:(simpl; lra)). specialize (A2 ltac:(cbn; auto) ltac:(simpl; lra)). simpl in A1, A2.
  cbn in F1. assert (l = 1 \/ l = 2 \/ l = 3)%nat as [-> | [-> | ->]] by lia. apply NZ. lra. discriminate. apply NZ. lra.
Qed.
(** the line 5 + 2 + 3 x *)
Definition seven (i : nat) : R := 7 + 3 * INR i.
Definition found (l : nat) : R := match l with 1%nat => 2 | 2%nat => 5 | 3%nat => 3 | _ => 0 end.
Lemma found_allowed : allowed (line seven) found.
Proof.
  intros l N. unfold free in N. cbn in N. destruct l as [|[|[|[|l]]]]; cbn; auto.
  exfalso. apply N. split; auto. exfalso. apply N. split; auto.
Qed.
Lemma found_exact : exact_at (line seven) found.
Proof.
  eexists. split. reflexivity. intros d i [<- |[]] _ _. cbn [line_ds d_pdf d_obs found]. unfold seven. lra.
Qed.
Lemma found_far : spread (line seven) (line0 seven) (f_p (line seven)) found > 0.
Proof. unfold spread. rewrite line_sum. unfold curvature, dpar. simpl. lra. Qed.
(** how much offset and slope are correlated *)
Lemma line_conditioned y : conditioned (line y) (line0 y) 26.
Proof.
  split. lra. intros x. rewrite line_sum, change2_form. rewrite line_sum. unfold curvature, dpar, along. rewrite !line_sum. simpl. cbn [Nat.sub].
  set (a := x 1%nat). set (b := x 3%nat). pose proof (Rle_0_sqr (a + 728 / 300 * b)) as P. unfold Rsqr in P. pose proof (Rle_0_sqr b) as P2. unfold Rsqr in P2. lra.
Qed.

(** one height for the values a and -a, starting from 7 *)
Definition flat7 (a : R) : fobj := blank 1 (fun _ => 7) (fun _ => true) (fun p => Ok [flat_ds a (p 1%nat)]) (Ok tt).
Lemma flat7_linear a : linear (flat7 a) [flat_ds a 7].
Proof.
  split. reflexivity. intros p A. eexists. split. reflexivity. constructor; [|constructor].
  split. reflexivity. split. reflexivity. intros i _. split. reflexivity. split. reflexivity. split. reflexivity.
  unfold along. change (sum_free (f_ia (flat7 a)) (f_ma (flat7 a))) with (sum_free (fun _ => true) 1). rewrite sum_free_1.
  unfold dpar. cbn. lra.
Qed.
Lemma flat7_free a m : free (flat7 a) m <-> m = 1%nat.
Proof. unfold free. cbn. lia. Qed.
