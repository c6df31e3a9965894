(** Specification side of the linear solver and of the covariance reordering:
    written with sums over 1..n, without reference to the algorithm. *)
From Coq Require Import List Arith Reals Bool.
From Verif Require Import RSum.
Import ListNotations.
Local Open Scope R_scope.

(** sum over 1..n *)
Definition S1 (n : nat) (f : nat -> R) : R := rsum n (fun i => f (S i)).

(** x solves the n equations A x = y *)
Definition solves (n : nat) (A : nat -> nat -> R) (x y : nat -> R) : Prop :=
  forall r, (1 <= r <= n)%nat -> S1 n (fun c => A r c * x c) = y r.

(** A has a non-zero kernel vector *)
Definition singular (n : nat) (A : nat -> nat -> R) : Prop :=
  exists x, (exists c, (1 <= c <= n)%nat /\ x c <> 0) /\ solves n A x (fun _ => 0).

(** entries of a product of n x n matrices *)
Definition matprod (n : nat) (A B : nat -> nat -> R) (r c : nat) : R := S1 n (fun k => A r k * B k c).

Definition identity (r c : nat) : R := if (r =? c)%nat then 1 else 0.

(** place of parameter j among the free parameters 1..j *)
Fixpoint rank (ia : nat -> bool) (j : nat) : nat :=
  match j with O => O | S i => (rank ia i + if ia (S i) then 1 else 0)%nat end.
