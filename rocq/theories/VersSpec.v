(** Specification vocabulary for the version. *)
From Coq Require Import String List Bool.
From Verif Require Import Base.
Import ListNotations.

(** w is the first version defined in a history *)
Definition first_defined (h : list (option string)) (w : string) : Prop :=
  exists a b, h = a ++ Some w :: b /\ forall c, In c a -> c = None.
Definition never_defined (h : list (option string)) : Prop := forall c, In c h -> c = None.
