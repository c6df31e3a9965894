(** Specification vocabulary for the work arrays. *)
From Coq Require Import List ZArith Reals Bool.
From Verif Require Import Base NrModel.
Local Open Scope Z_scope.

(** memory after numbers have been written to elements of an array; [at_] gives the
    place of an element, [dom] the subscripts *)
Inductive written {I} (at_ : heap -> I -> outcome ptr) (dom : I -> Prop) (h : heap) : heap -> Prop :=
| W_none : written at_ dom h h
| W_one h1 i p x h2 : written at_ dom h h1 -> dom i -> at_ h1 i = Ok p -> store h1 p (CVal x) = Ok h2 -> written at_ dom h h2.

(** h1 is h with an array: at any time every element can be written and read back,
    other elements and the blocks of h are not touched by it, and freeing leaves
    the blocks of h as they were and no other block alive *)
Definition array {I} (at_ : heap -> I -> outcome ptr) (dom : I -> Prop) (free : heap -> outcome heap) (h h1 : heap) : Prop :=
  forall h2, written at_ dom h1 h2 ->
  (forall b, (b < length h)%nat -> nth_error h2 b = nth_error h b) /\
  (forall i, dom i -> exists p, at_ h2 i = Ok p /\
     forall x, exists h3, store h2 p (CVal x) = Ok h3 /\ load h3 p = Ok (CVal x) /\
       forall j, dom j -> j <> i -> exists q, at_ h2 j = Ok q /\ at_ h3 j = Ok q /\ load h3 q = load h2 q) /\
  (exists h4, free h2 = Ok h4 /\ (length h <= length h4)%nat /\
     (forall b, (b < length h)%nat -> nth_error h4 b = nth_error h b) /\
     forall b B, (length h <= b)%nat -> nth_error h4 b = Some B -> bk_live B = false).
