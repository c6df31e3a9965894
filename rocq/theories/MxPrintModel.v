(** Model of the printing of vectors and matrices, matrix.h:191-237. *)
From Coq Require Import String Ascii List Arith Bool.
From Verif Require Import Base.
Import ListNotations.
Local Open Scope list_scope.

Section Print.
Context {T : Type}.
(** operator<< of one element (matrix.h:199,213,231); its text does not depend on earlier output *)
Variable show : T -> list ascii.
(** string literals, matrix.h:196-235 *)
Definition lit (s : string) : list ascii := list_ascii_of_string s.

(** the stream given to operator<<, and the global *pout (matrix.h:231-235) *)
Inductive dest : Type := Out | Pout.
(** the sequence of << operations of one call, matrix.h:196-235 *)
Definition writes : Type := list (dest * list ascii).

(** models matrix.h:206-218, operator<< for std::vector *)
Definition vec_out (v : list T) : writes :=
  [(Out, lit "(")] ++
  flat_map (fun i => match nth_error v i with
    | Some x => [(Out, show x)] ++ (if negb (i =? length v - 1) then [(Out, lit ", ")] else [(Out, lit ")
")])
    | None => [] (* not for i < v.size() *)
    end) (seq 0 (length v)).

(** models matrix.h:220-237, operator<< for matrix; at i j is mx(i,j) *)
Definition mx_out (r c : nat) (at_ : nat -> nat -> T) : writes :=
  [(Out, lit "( ")] ++
  flat_map (fun i =>
    [(Out, lit "(")] ++
    flat_map (fun j => [(Pout, show (at_ i j))] ++ (if negb (j =? c - 1) then [(Pout, lit ", ")] else [(Pout, lit ")")])) (seq 0 c) ++
    (if negb (i =? r - 1) then [(Pout, lit ", ")] else [(Pout, lit " )
")])) (seq 0 r).

(** models matrix.h:191-203, print; [num] is the text of an index *)
Definition mx_print (num : nat -> list ascii) (r c : nat) (at_ : nat -> nat -> T) : writes :=
  flat_map (fun i =>
    [(Pout, num i); (Pout, lit ": ")] ++
    flat_map (fun j => [(Pout, show (at_ i j)); (Pout, lit " ")]) (seq 0 c) ++ [(Pout, lit "
")]) (seq 0 r).
End Print.
