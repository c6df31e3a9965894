(** Specification of the parameter table, by call history only.
    Histories are written most recent call first.  Nothing here refers to the
    table layout of the model. *)
From Coq Require Import List ZArith.
From Verif Require Import Base ParamModel.
Import ListNotations.
Local Open Scope Z_scope.

Section Spec.
Context {T : Type}.

(** value of the last setpar of id [k] *)
Fixpoint last_set (k : Z) (h : list (pop T)) : option T :=
  match h with
  | [] => None
  | PSet n v :: r => if Z.eqb (u32 n) k then Some v else last_set k r
  | _ :: r => last_set k r
  end.

Definition names (n k : Z) : bool := Z.eqb n (-1) || Z.eqb (u32 n) k.

(** free flag of id [k]: [None] while it does not exist *)
Fixpoint flag_of (k : Z) (h : list (pop T)) : option bool :=
  match h with
  | [] => None
  | PSet n v :: r =>
      match flag_of k r with
      | Some b => Some b
      | None => if Z.eqb (u32 n) k then Some true else None
      end
  | PGet _ :: r => flag_of k r
  | PFix n :: r =>
      match flag_of k r with
      | Some b => Some (if names n k then false else b)
      | None => None
      end
  | PFree n :: r =>
      match flag_of k r with
      | Some b => Some (if names n k then true else b)
      | None => None
      end
  end.

End Spec.
