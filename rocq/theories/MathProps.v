(** C37, C38: built-in functions and the spherical envelope. *)
From Coq Require Import List String Reals Lra.
From Verif Require Import Base ParserModel MathModel MathSpec MathProof.
Import ListNotations.
Local Open Scope R_scope.

(** C37: every function of the specification is found under its name, computes
    the specified function and carries its derivative. *)
Theorem C37_builtin_derivatives :
  forall name f dom, In (name, (f, dom)) fun_spec ->
    exists b, find_builtin Rbuiltins (chars name) = Some b /\ (forall x, bfun b x = f x) /\
      forall x, dom x -> derivable_pt_lim f x (bder b x).
Proof. exact builtin_lookup. Qed.
Print Assumptions C37_builtin_derivatives.

(** C37: no other name is found. *)
Theorem C37_builtin_names :
  forall n b, find_builtin Rbuiltins n = Some b ->
    exists name f dom, n = chars name /\ In (name, (f, dom)) fun_spec /\ (forall x, bfun b x = f x) /\
      forall x, dom x -> derivable_pt_lim f x (bder b x).
Proof. exact lookup_builtin. Qed.
Print Assumptions C37_builtin_names.

Example C37_case : exists f dom, In ("tand"%string, (f, dom)) fun_spec /\ dom 60 /\
  f 0 = 0 /\ exists b, find_builtin Rbuiltins (chars "tand") = Some b.
Proof. exact builtin_case. Qed.

(** C38 *)
Theorem C38_envelope_shape :
  forall r d, 0 < d -> 0 <= r ->
    0 <= sphereEnvelope r d <= 1 /\ sphereEnvelope 0 d = 1 /\
    (d <= r -> sphereEnvelope r d = 0) /\
    (r < d -> sphereEnvelope r d = 1 - 3/2 * (r/d) + 1/2 * (r/d)^3 /\ 0 < sphereEnvelope r d) /\
    (forall r', r <= r' -> sphereEnvelope r' d <= sphereEnvelope r d).
Proof. exact env_shape. Qed.
Print Assumptions C38_envelope_shape.

Theorem C38_envelope_derivative :
  forall r d, 0 < d -> 0 <= r ->
    derivable_pt_lim (fun x => sphereEnvelope r x) d (dsphereEnvelope r d).
Proof. exact env_deriv. Qed.
Print Assumptions C38_envelope_derivative.

Example C38_case : sphereEnvelope 1 2 = 5/16 /\ dsphereEnvelope 1 2 = 9/32.
Proof. exact env_case. Qed.
