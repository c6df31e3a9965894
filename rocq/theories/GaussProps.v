(** C16: Gauss-Jordan solver; C17: expansion of the covariance matrix. *)
From Coq Require Import List Arith Reals Bool Lra Lia.
From Verif Require Import Base RSum GaussModel GaussSpec GaussProof.
Import ListNotations.
Local Open Scope R_scope.

(** the solver returns the two-sided inverse and the solution, or raises
    calculationError; it raises exactly when the matrix is singular *)
Theorem C16_inverse_and_solution :
  forall n m A B,
  (exists A' B', gaussj n m A B = Ok (A', B') /\
     (forall r c, (1 <= r <= n)%nat -> (1 <= c <= n)%nat ->
        matprod n A A' r c = identity r c /\ matprod n A' A r c = identity r c) /\
     (forall r k, (1 <= r <= n)%nat -> (1 <= k <= m)%nat -> S1 n (fun c => A r c * B' c k) = B r k) /\
     (forall r c, ~ ((1 <= r <= n)%nat /\ (1 <= c <= n)%nat) -> A' r c = A r c) /\
     (forall r k, ~ ((1 <= r <= n)%nat /\ (1 <= k <= m)%nat) -> B' r k = B r k) /\
     ~ singular n A) \/
  (gaussj n m A B = Err ErrCalculation /\ singular n A).
Proof. exact gaussj_full. Qed.
Print Assumptions C16_inverse_and_solution.

(** the solution is the only one *)
Theorem C16_solution_unique :
  forall n m A B A' B' k x, gaussj n m A B = Ok (A', B') -> (1 <= k <= m)%nat ->
  solves n A x (fun r => B r k) -> forall r, (1 <= r <= n)%nat -> x r = B' r k.
Proof. exact gaussj_unique. Qed.
Print Assumptions C16_solution_unique.

(** a matrix with a zero in the first diagonal place, so that rows must be
    exchanged, is not singular: the solver succeeds on it *)
Definition ex_A (r c : nat) : R := match r, c with 1%nat, 2%nat => 2 | 2%nat, 1%nat => 3 | 2%nat, 2%nat => 1 | _, _ => 0 end.
Example C16_case : exists A' B', gaussj 2 1 ex_A (fun r _ => INR r) = Ok (A', B') /\ A' 1%nat 1%nat = - / 6 /\ B' 1%nat 1%nat = / 2.
Proof.
  destruct (C16_inverse_and_solution 2 1 ex_A (fun r _ => INR r)) as [(A' & B' & E & I & X & _)|(_ & (x & (c & Hc & NZ) & K))].
  - exists A', B'. split; auto.
    pose proof (I 1%nat 1%nat ltac:(lia) ltac:(lia)) as [I11 _]. pose proof (I 2%nat 1%nat ltac:(lia) ltac:(lia)) as [I21 _].
    pose proof (X 1%nat 1%nat ltac:(lia) ltac:(lia)) as X1. pose proof (X 2%nat 1%nat ltac:(lia) ltac:(lia)) as X2.
    unfold matprod, S1, rsum, ex_A, identity, INR in *. simpl in *. lra.
  - exfalso. apply NZ. pose proof (K 1%nat ltac:(lia)) as K1. pose proof (K 2%nat ltac:(lia)) as K2.
    unfold S1, rsum, ex_A in *. simpl in *. assert (c = 1 \/ c = 2)%nat as [->| ->] by lia; lra.
Qed.

Example C16_case_singular : gaussj 2 1 (fun r _ => INR r) (fun r _ => 0) = Err ErrCalculation.
Proof.
  destruct (C16_inverse_and_solution 2 1 (fun r _ => INR r) (fun r _ => 0)) as [(A' & B' & _ & _ & _ & _ & _ & N)|(E & _)]; auto.
  exfalso. apply N. exists (fun c => if (c =? 1)%nat then 1 else -1). split.
  - exists 1%nat. split; [lia|]. simpl. lra.
  - intros r _. unfold S1, rsum. simpl. lra.
Qed.

(** covariance of all parameters from the compact matrix of the free ones; [rank ia ma] is
    the number of free parameters, as mrqmin counts it *)
Theorem C17_covariance_expanded :
  forall (C : nat -> nat -> R) ma ia,
  (forall r c, (1 <= r <= ma)%nat -> (1 <= c <= ma)%nat ->
     covsrt C ma ia (rank ia ma) r c = if (ia r && ia c)%bool then C (rank ia r) (rank ia c) else 0) /\
  (forall r c, ~ ((1 <= r <= ma)%nat /\ (1 <= c <= ma)%nat) -> covsrt C ma ia (rank ia ma) r c = C r c).
Proof. exact covsrt_spec. Qed.
Print Assumptions C17_covariance_expanded.

(** parameters 2 and 3 of 3 are free *)
Example C17_case : forall C : nat -> nat -> R,
  let V := covsrt C 3 (fun i => negb (i =? 1)%nat) 2 in
  V 2%nat 3%nat = C 1%nat 2%nat /\ V 3%nat 3%nat = C 2%nat 2%nat /\ V 1%nat 3%nat = 0.
Proof.
  intros C V. destruct (C17_covariance_expanded C 3 (fun i => negb (i =? 1)%nat)) as [H _].
  unfold V. repeat split; apply (H _ _ ltac:(lia) ltac:(lia)).
Qed.
