(** Specification vocabulary for data given as Python lists. *)
From Coq Require Import List Arith ZArith Reals Bool.
From Verif Require Import Base ListsModel.
Import ListNotations.

(** the argument is a list of the numbers xs *)
Definition is_list (a : pyarg) (xs : list R) : Prop := a = PyList (map PyNum xs).
(** what Python gets *)
Inductive seen : Type := SReturns | SValueError | SDataError | SSystemError | SUndefined | SKilled.
Definition seen_by_python (c : called) : seen :=
  match c_end c with
  | ENone => if c_set c then SSystemError else SReturns (* "returned a result with an exception set" *)
  | EValue => SValueError
  | EData => SDataError
  | EUndef => SUndefined
  | ETerminate => SKilled
  end.
(** a list; its elements need not be numbers *)
Definition some_list (a : pyarg) (n : nat) : Prop := exists l, a = PyList l /\ length l = n.
Definition no_list (a : pyarg) : Prop := a = PyNone \/ a = PyOther.
(** the number an element is taken for *)
Definition taken (v : pyval) : R := match v with PyNum x => x | PyNotNum => (-1)%R end.
Definition all_numbers (l : list pyval) : Prop := ~ In PyNotNum l.
