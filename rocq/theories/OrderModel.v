(** Model of Fit::order_by_id (output.cc:325-347). *)
From Coq Require Import List ZArith Bool.
From Verif Require Import Base ParamModel.
Import ListNotations.
Local Open Scope Z_scope.

(** operator< of pair<unsigned int,int> *)
Definition pair_lt (a b : Z * nat) : bool :=
  (fst a <? fst b) || ((fst a =? fst b) && (snd a <? snd b)%nat).

(** std::sort (output.cc:338).  The pairs are all different, so every sorting
    algorithm gives the same result; insertion sort is used here. *)
Fixpoint insert (x : Z * nat) (l : list (Z * nat)) : list (Z * nat) :=
  match l with
  | [] => [x]
  | y :: r => if pair_lt y x then y :: insert x r else x :: l
  end.
Definition sort_pairs (l : list (Z * nat)) : list (Z * nat) := fold_right insert [] l.

(** models output.cc:328-347 *)
Definition order_by_id {T} (t : ptab T) : list nat :=
  map snd (sort_pairs (combine (pid t) (seq 0 (length (pid t))))).
