(** Specification vocabulary for printed vectors and matrices. *)
From Coq Require Import String Ascii List Arith Bool.
From Verif Require Import Base MxPrintModel.
Import ListNotations.

(** what arrives when the stream is *pout itself *)
Definition all_text (w : writes) : list ascii := concat (map snd w).
(** what arrives at the stream when it is another one than *pout *)
Definition out_text (w : writes) : list ascii := concat (map (fun x => match fst x with Out => snd x | Pout => [] end) w).
(** texts one after the other with a separator between *)
Fixpoint join (sep : list ascii) (l : list (list ascii)) : list ascii :=
  match l with [] => [] | [x] => x | x :: r => x ++ sep ++ join sep r end.
Definition paren (open close : string) (l : list (list ascii)) : list ascii :=
  list_ascii_of_string open ++ join (list_ascii_of_string ", ") l ++ list_ascii_of_string close.
(** the rows of a matrix *)
Definition rows_of {T} (r c : nat) (at_ : nat -> nat -> T) : list (list T) := map (fun i => map (at_ i) (seq 0 c)) (seq 0 r).
Definition newline : string := String (ascii_of_nat 10) EmptyString.
