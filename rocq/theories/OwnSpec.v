(** Specification vocabulary for the objects of a session. *)
From Coq Require Import List Arith ZArith Reals.
From Verif Require Import Base OwnModel.
Import ListNotations.

(** number of objects that exist *)
Definition existing (p : pool) : nat := length (filter (fun b => b) (p_live p)).
(** arguments of alloc that it does not accept *)
Definition refused (c : scall) : Prop :=
  match c with CAlloc qmax qdamp rmin rmax bin => (rmax < rmin \/ rmin < 0 \/ rmax < 0 \/ qmax < 0 \/ qdamp < 0)%R \/ (bin <= 1)%Z | _ => False end.
(** the calls of cs that satisfy P are n *)
Inductive times (P : scall -> Prop) : list scall -> nat -> Prop :=
| t_nil : times P [] 0
| t_yes c cs n : P c -> times P cs n -> times P (c :: cs) (S n)
| t_no c cs n : ~ P c -> times P cs n -> times P (c :: cs) n.
