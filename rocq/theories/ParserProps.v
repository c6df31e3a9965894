(** C06, C07, C08: constraint formulas. *)
From Coq Require Import List ZArith Ascii String Reals Lra Lia.
From Verif Require Import Base ParamModel ParamProof ParserModel ParserSafe ParserSpec ParserProof
  ParserDeriv MathModel MathSpec MathProof ParserCases.
Import ListNotations.

(** C06, for any arithmetic and any table of functions: a text derived by the
    grammar evaluates to the value of its tree. *)
Theorem C06_formula_value {T : Type} :
  forall (N : numops T) (builtins : list (builtin T)) (t : ptab T) (line : text) (e : fexp) (v : T),
    wf t -> gexp line e -> (Z.of_nat (List.length line) <= 2147483647)%Z ->
    ev N builtins (env_of t) e = Some v ->
    exists d used, parse N builtins t line = Ok (v, d, used).
Proof. exact parse_value. Qed.
Print Assumptions C06_formula_value.

(** C06: the blanks of the grammar are those of isspace in the C locale. *)
Theorem C06_blanks : forall c : ascii, is_space c = true <-> In c (map ascii_of_nat [32; 9; 10; 11; 12; 13])%nat.
Proof. exact blank_chars. Qed.
Print Assumptions C06_blanks.

(** C06 over the reals with the functions of the code. *)
Theorem C06_formula_value_real :
  forall (t : ptab R) (line : text) (e : fexp) (v : R),
    wf t -> gexp line e -> (Z.of_nat (List.length line) <= 2147483647)%Z ->
    meaning (env_of t) e = Some v ->
    exists d used, parse (Rnum Rlit) Rbuiltins t line = Ok (v, d, used).
Proof. exact parse_meaning. Qed.
Print Assumptions C06_formula_value_real.

(** C07: value and partial derivatives, with the functions of the code. *)
Theorem C07_formula_gradient :
  forall (t : ptab R) (line : text) (e : fexp) (v : R),
    wf t -> gexp line e -> (Z.of_nat (List.length line) <= 2147483647)%Z ->
    meaning (env_of t) e = Some v -> smooth (env_of t) e ->
    exists d used,
      parse (Rnum Rlit) Rbuiltins t line = Ok (v, d, used) /\
      (forall n, In n (pars e) -> exists i k x0,
         parfind t n = Some k /\ nth_error used i = Some k /\ getpar t n = Ok x0 /\
         (nth_error (pfree t) k = Some true ->
            derivable_pt_lim (partial_fun (env_of t) e n) x0 (nth i d 0%R)) /\
         (nth_error (pfree t) k = Some false -> nth i d 0%R = 0%R)).
Proof. exact parse_gradient. Qed.
Print Assumptions C07_formula_gradient.

(** The hypotheses hold of "2*(@7 - 1.5) + sqr(-@7)/@3" with @7 free and @3 fixed. *)
Example C06_C07_case :
  let line := chars "2*(@7 - 1.5) + sqr(-@7)/@3" in
  wf case_tab /\ gexp line case_tree /\ (Z.of_nat (List.length line) <= 2147483647)%Z /\
  meaning (env_of case_tab) case_tree = Some 9%R /\ smooth (env_of case_tab) case_tree /\
  nth_error (pfree case_tab) 0 = Some true /\ nth_error (pfree case_tab) 1 = Some false.
Proof. exact case_ok. Qed.

(** C08: any text at all; the answer is a value or an error. *)
Theorem C08_formula_safe {T : Type} :
  forall (N : numops T) (builtins : list (builtin T)) (t : ptab T) (line : text), wf t ->
    (nopd line -> parse N builtins t line <> UB) /\ parse N builtins t line <> NoFuel.
Proof. exact parse_safe. Qed.
Print Assumptions C08_formula_safe.

(** hypotheses met by an arbitrary malformed text *)
Example C08_case : wf case_tab /\ nopd (chars ")(*--@7#)sin((1)-") /\
  parse (Rnum Rlit) Rbuiltins case_tab (chars ")(*--@7)sin((1)-") = Err ErrParse.
Proof. exact safe_case. Qed.

(** Finding: a digit directly behind ')' is glued to the index of the bracket's
    value; "(1)2" reads an element that does not exist. *)
Theorem C08_formula_safe_refuted :
  exists (line : text), parse (Rnum Rlit) Rbuiltins ptab_init line = UB.
Proof. exact glue_ub. Qed.
Print Assumptions C08_formula_safe_refuted.

(** Finding: some texts outside the grammar are accepted, e.g. "(1)0" is 1. *)
Theorem C08_rejects_bad_refuted :
  exists (line : text) (v : R) d used,
    (forall e, ~ gexp line e) /\ parse (Rnum Rlit) Rbuiltins ptab_init line = Ok (v, d, used).
Proof. exact glue_accepted. Qed.
Print Assumptions C08_rejects_bad_refuted.
