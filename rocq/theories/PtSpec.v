(** Specification vocabulary for the changing table of elements. *)
From Coq Require Import String List Arith Bool.
From Verif Require Import Base PtModel.
Import ListNotations.

Section Spec.
Context {D : Type}.
(** k stands for the element a: as its symbol, or as 2-H or 3-H *)
Definition called (a : atype D) (k : string) : Prop :=
  a_symbol a = k \/ (k = "2-H"%string /\ (a_symbol a = "D"%string \/ a_name a = "D"%string)) \/ (k = "3-H"%string /\ (a_symbol a = "T"%string \/ a_name a = "T"%string)).
(** pointers a user can have from the table *)
Definition given (s : ptab D) (p : nat) : Prop := exists k, pt_symbol s k = Some p \/ pt_name s k = Some p.
(** use of the table that does not rename elements and does not delete deuterium
    and tritium *)
Definition tidy (s : ptab D) (op : pop D) : Prop :=
  match op with
  | PDelete p => forall a, deref (pt_heap s) p = Ok a -> ~ In (a_symbol a) ["D"%string; "T"%string] /\ ~ In (a_name a) ["D"%string; "T"%string]
  | PReset p => given s p
  | PWrite p a => given s p /\ forall b, deref (pt_heap s) p = Ok b -> a_symbol a = a_symbol b /\ a_name a = a_name b
  | _ => True
  end.
Fixpoint tidy_run (s : ptab D) (ops : list (pop D)) : Prop :=
  match ops with
  | [] => True
  | op :: r => tidy s op /\ match pdo s op with Ok s' => tidy_run s' r | _ => True end
  end.
Definition prun (s : ptab D) (ops : list (pop D)) : outcome (ptab D) := ofold pdo ops s.
End Spec.
