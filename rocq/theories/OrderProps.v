(** C18: order of the parameters in printed results. *)
From Coq Require Import List ZArith Permutation.
From Verif Require Import Base ParamModel OrderModel OrderProof.
Import ListNotations.
Local Open Scope Z_scope.

(** for every history of calls: all positions of the table, each once, with
    strictly ascending ids *)
Theorem C18_ascending_ids {T : Type} :
  forall h : list (pop T), let t := prun ptab_init h in
  Permutation (seq 0 (length (pid t))) (order_by_id t) /\
  forall j k i1 i2 a b, (j < k)%nat ->
    nth_error (order_by_id t) j = Some i1 -> nth_error (order_by_id t) k = Some i2 ->
    nth_error (pid t) i1 = Some a -> nth_error (pid t) i2 = Some b -> a < b.
Proof. exact order_spec. Qed.
Print Assumptions C18_ascending_ids.

Example C18_case : order_by_id (prun ptab_init [PSet 30 1; PSet 4 2; PSet 30 3; PSet (-2) 5; PSet 17 0]) = [1; 3; 0; 2]%nat.
Proof. reflexivity. Qed.
