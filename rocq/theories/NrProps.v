(** C87: the work arrays of the least squares. *)
From Coq Require Import List ZArith Reals.
From Verif Require Import Base NrModel NrSpec NrProof.
Import ListNotations.
Local Open Scope Z_scope.

(** dmatrix(nrl, nrh, ncl, nch): every m[i][j] with subscripts in the ranges is an
    element of its own, the rest of the memory is not touched, and free_dmatrix
    gives everything back *)
Theorem C87_matrix :
  forall h nrl nrh ncl nch, nrl <= nrh -> ncl <= nch ->
  exists h1 m, matrix false nrl nrh ncl nch h = Ok (h1, m) /\
  array (fun h ij => mat_at false h m (fst ij) (snd ij)) (fun ij => nrl <= fst ij <= nrh /\ ncl <= snd ij <= nch)
    (free_matrix false m nrl nrh ncl nch) h h1.
Proof. intros h nrl nrh ncl nch Hr Hc. exact (matrix_array false h nrl nrh ncl nch Hr Hc (fun E => match Bool.diff_false_true E with end)). Qed.
Print Assumptions C87_matrix.

(** for the subscripts from 1, the ones used, all pointers formed on the way lie in
    their arrays, as the C++ standard asks *)
Theorem C87_matrix_standard :
  forall h nrh nch, 1 <= nrh -> 1 <= nch ->
  exists h1 m, matrix true 1 nrh 1 nch h = Ok (h1, m) /\
  array (fun h ij => mat_at true h m (fst ij) (snd ij)) (fun ij => 1 <= fst ij <= nrh /\ 1 <= snd ij <= nch)
    (free_matrix true m 1 nrh 1 nch) h h1.
Proof. intros h nrh nch Hr Hc. exact (matrix_array true h 1 nrh 1 nch Hr Hc (fun _ => conj eq_refl eq_refl)). Qed.
Print Assumptions C87_matrix_standard.

(** dvector and ivector, on a machine with plain addresses *)
Theorem C87_vector :
  forall h nl nh, nl <= nh ->
  exists h1 v, vector false nl nh h = Ok (h1, v) /\
  array (fun h => vec_at false h v) (fun i => nl <= i <= nh) (free_vector false v nl nh) h h1.
Proof. exact vector_array. Qed.
Print Assumptions C87_vector.

(** with nothing to allocate there is no array and nothing to free *)
Theorem C87_empty :
  forall strict nl nh ncl nch v h, nh < nl ->
  vector strict nl nh h = Ok (h, Null) /\ free_vector strict v nl nh h = Ok h /\
  matrix strict nl nh ncl nch h = Ok (h, Null) /\ free_matrix strict v nl nh ncl nch h = Ok h.
Proof. exact empty_arrays. Qed.
Print Assumptions C87_empty.

(** unlike for matrices, each vector with subscripts from 1 forms the pointer v - 1
    before its array, undefined by the standard *)
Theorem C87_vector_pointer :
  forall h nh, 1 <= nh -> vector true 1 nh h = UB.
Proof. exact vector_strict. Qed.
Print Assumptions C87_vector_pointer.

Theorem C87_vector_standard_refuted :
  exists nl nh h, nl <= nh /\ vector true nl nh h = UB.
Proof. exact vector_fails. Qed.
Print Assumptions C87_vector_standard_refuted.

(** memory with one block in use; a matrix of 3 x 2, the element [2][1] written *)
Example C87_case :
  let h := [mkBlk true [CVal 1%R]] in
  exists h1 m p h2, matrix true 1 3 1 2 h = Ok (h1, m) /\ mat_at true h1 m 2 1 = Ok p /\ p = At 2 3 /\
  store h1 p (CVal 5%R) = Ok h2 /\ written (fun h ij => mat_at true h m (fst ij) (snd ij)) (fun ij => 1 <= fst ij <= 3 /\ 1 <= snd ij <= 2) h1 h2.
Proof.
  eexists _, _, _, _. split. reflexivity. split. reflexivity. split. reflexivity. split. reflexivity.
  eapply (W_one _ _ _ _ (2, 1)); [apply W_none| | |]; try reflexivity. cbn. repeat split; discriminate.
Qed.
