(** Property C73: linear parameters are refined to the least squares solution. *)
From Coq Require Import List Arith Reals Bool.
From Verif Require Import Base RSum LsModel LsSpec LsProof LsCases LinSpec LinRun LinFinal LinEx.
Import ListNotations.
Local Open Scope R_scope.

(** model linear in the free parameters, which are independent of each other: every
    refinement succeeds; there is one set of values with the least sum of squares; the
    refined values are never farther from it than the start; the sum of squares exceeds
    the least one by a fraction that shrinks with the number of iterations, and so does
    the distance when the parameters are not too correlated *)
Theorem C73_least_squares : forall toler fuel running c st o ds0, fresh running c -> f_setup o = Ok tt -> (101 <= fuel)%nat ->
  linear o ds0 -> weights_ok ds0 -> ~ dependent o ds0 ->
  exists c' x' q cmin, ls_refine toler fuel running c (st, o) = (false, c', x', Ok tt) /\
    least o q cmin /\ (forall q' c1, least o q' c1 -> q' = q) /\
    let p := f_p (snd x') in let n := c_iter c' in
    (4 <= n <= 100)%nat /\ allowed o p /\ spread o ds0 p q <= spread o ds0 (f_p o) q /\
    cmin <= f_chisq (snd x') <= cmin + / 10 ^ (n + 2) / 4 * spread o ds0 (f_p o) q /\
    forall k, conditioned o ds0 k -> spread o ds0 p q <= (k ^ n * shrink n) * (k ^ n * shrink n) * spread o ds0 (f_p o) q.
Proof. exact least_squares. Qed.
Print Assumptions C73_least_squares.
Example C73_least_squares_case : forall y, fresh false c_new /\ f_setup (line y) = Ok tt /\ linear (line y) (line0 y) /\ weights_ok (line0 y) /\
  ~ dependent (line y) (line0 y) /\ conditioned (line y) (line0 y) 26.
Proof.
  exact (fun y => conj (or_introl eq_refl) (conj eq_refl (conj (line_linear y) (conj (line_weights y) (conj (line_independent y) (line_conditioned y)))))).
Qed.

(** a single free parameter that matters: its distance from the best value shrinks to
    10^-18 of what it was, or less, and the others stay *)
Theorem C73_single : forall toler fuel running c st o ds0 l, fresh running c -> f_setup o = Ok tt -> (101 <= fuel)%nat ->
  linear o ds0 -> weights_ok ds0 -> (forall m, free o m <-> m = l) -> ~ no_influence ds0 l ->
  exists c' x' q cmin, ls_refine toler fuel running c (st, o) = (false, c', x', Ok tt) /\ least o q cmin /\
    Rabs (f_p (snd x') l - q l) <= / 10 ^ 18 * Rabs (f_p o l - q l) /\ (forall m, m <> l -> f_p (snd x') m = f_p o m).
Proof. exact single_parameter. Qed.
Print Assumptions C73_single.
Example C73_single_case : forall a, fresh false c_new /\ f_setup (flat7 a) = Ok tt /\ linear (flat7 a) [flat_ds a 7] /\ weights_ok [flat_ds a 7] /\
  (forall m, free (flat7 a) m <-> m = 1%nat) /\ ~ no_influence [flat_ds a 7] 1.
Proof.
  exact (fun a => conj (or_introl eq_refl) (conj eq_refl (conj (flat7_linear a) (conj (flat_weights a 7) (conj (flat7_free a) (flat_influence a 7 1)))))).
Qed.

(** data that some values reproduce exactly: these values are approached, and chi
    squared goes to at most a 4000000th of the squared distance of the start *)
Theorem C73_recovers : forall toler fuel running c st o ds0 q, fresh running c -> f_setup o = Ok tt -> (101 <= fuel)%nat ->
  linear o ds0 -> weights_ok ds0 -> ~ dependent o ds0 -> allowed o q -> exact_at o q ->
  exists c' x', ls_refine toler fuel running c (st, o) = (false, c', x', Ok tt) /\
    0 <= f_chisq (snd x') <= / 10 ^ 6 / 4 * spread o ds0 (f_p o) q /\
    forall k, conditioned o ds0 k -> let g := k ^ c_iter c' * shrink (c_iter c') in spread o ds0 (f_p (snd x')) q <= g * g * spread o ds0 (f_p o) q.
Proof. exact exact_recovered. Qed.
Print Assumptions C73_recovers.
Example C73_recovers_case : allowed (line seven) found /\ exact_at (line seven) found /\ spread (line seven) (line0 seven) (f_p (line seven)) found > 0.
Proof. exact (conj found_allowed (conj found_exact found_far)). Qed.
