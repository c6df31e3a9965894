(** Shared vocabulary of the model: outcomes of C++ calls. *)
From Coq Require Import List ZArith Lia.
Import ListNotations.

(** Exception classes thrown by the engine.
    models src/extensions/libpdffit2/exceptions.h (class names only;
    the message texts are not modelled, [ErrPlain] stands for
    [std::runtime_error]/[const char*] throws). *)
Inductive err : Type :=
| ErrValue        (* ValueError *)
| ErrUnassigned   (* unassignedError *)
| ErrIO           (* IOError *)
| ErrData         (* dataError *)
| ErrStructure    (* structureError *)
| ErrCalculation  (* calculationError *)
| ErrConstraint   (* constraintError *)
| ErrParse        (* parseError *)
| ErrPlain.       (* runtime_error and friends *)

(** Outcome of a modelled call.  [UB] is C++ undefined behaviour (bad index,
    null or dangling pointer); [NoFuel] marks that the model's step bound was
    exhausted, i.e. the loop had not finished. *)
Inductive outcome (A : Type) : Type :=
| Ok (a : A)
| Err (e : err)
| UB
| NoFuel.
Arguments Ok {A} a.
Arguments Err {A} e.
Arguments UB {A}.
Arguments NoFuel {A}.

Definition obind {A B} (x : outcome A) (f : A -> outcome B) : outcome B :=
  match x with
  | Ok a => f a
  | Err e => Err e
  | UB => UB
  | NoFuel => NoFuel
  end.

Definition omap {A B} (f : A -> B) (x : outcome A) : outcome B :=
  obind x (fun a => Ok (f a)).

(** conversion of a C++ [int] (or Python int accepted by the "I" format)
    to [unsigned int], 32 bit. *)
Definition u32 (z : Z) : Z := Z.modulo z 4294967296.

(** replace the element at position [n]; identity when out of range (the model
    always checks the range first) *)
Fixpoint upd {A} (n : nat) (x : A) (l : list A) : list A :=
  match l, n with
  | [], _ => []
  | _ :: t, O => x :: t
  | h :: t, S m => h :: upd m x t
  end.

(** a loop whose body may fail *)
Fixpoint ofold {S A} (f : S -> A -> outcome S) (l : list A) (s : S) : outcome S :=
  match l with
  | [] => Ok s
  | a :: r => obind (f s a) (ofold f r)
  end.

(** reading and writing an array through an index, UB when out of range *)
Definition rd {A} (l : list A) (i : nat) : outcome A :=
  match nth_error l i with Some x => Ok x | None => UB end.
Definition wr {A} (l : list A) (i : nat) (x : A) : outcome (list A) :=
  if (i <? length l)%nat then Ok (upd i x l) else UB.
