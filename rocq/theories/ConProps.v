(** C03, C04, C05: constraints. *)
From Coq Require Import List ZArith Ascii String Bool Reals.
From Verif Require Import Base ParamModel ParamProof ParserModel ParserSpec ParserDeriv MatrixModel MatrixProof MathModel
  MathSpec MathProof ParserUsed ConModel ConSpec ConProof ConHist ConReal ConCases ParserCases.
Import ListNotations.

(** C03: one entry per variable, and after a successful calculation a variable
    has the value of the last constraint given for it, an unconstrained one the
    value it had.  [clean] is the proviso. *)
Theorem C03_last_constraint_wins {T : Type} :
  forall (N : numops T) (builtins : list (builtin T)) mem (h : list (cop T)) s',
  (forall h1 o h2, h = h1 ++ o :: h2 -> clean (crun N builtins (cinit mem) h1) o) ->
  fill_variables N builtins (crun N builtins (cinit mem) h) = (s', Ok tt) ->
  let s := crun N builtins (cinit mem) h in
  NoDup (map cvar (cons_ s)) /\
  (forall a x, latest a (rev h) = Some x -> x <> AStr [] -> arg_val N builtins (ctab s) x (cmem s' a)) /\
  (forall a, latest a (rev h) = None -> cmem s' a = cmem s a).
Proof. exact last_wins. Qed.
Print Assumptions C03_last_constraint_wins.

(** C03: the proviso holds in every history without fixpar in which constraints
    name at least one parameter and have a value at every calculation *)
Theorem C03_clean_without_fix {T : Type} :
  forall (N : numops T) (builtins : list (builtin T)) mem (h : list (uop T)),
  (forall n, ~ In (UPar (PFix n)) h) ->
  Forall (fun ac => con_ok (snd ac) /\ con_pars (snd ac) <> []) (ucons h) ->
  (forall h1 h2, h = h1 ++ UCalc :: h2 -> forall a c, In (a, c) (ucons h1) ->
     con_val N builtins (env_of (ctab (crun N builtins (cinit mem) (map to_cop h1)))) c <> None) ->
  forall h1 o h2, map to_cop h = h1 ++ o :: h2 -> clean (crun N builtins (cinit mem) h1) o.
Proof. exact no_fix_clean. Qed.
Print Assumptions C03_clean_without_fix.

(** hypotheses met by a history that constrains variable 5 twice *)
Example C03_case : let h := [UPar (PSet 7 3%R); UCon 5%nat (KPar KSqr 7); UCalc; UPar (PSet 3 (3/2)%R);
     UCon 5%nat (KPar KComp 3)] in
  (forall n, ~ In (UPar (PFix n)) h) /\
  Forall (fun ac => con_ok (snd ac) /\ con_pars (snd ac) <> []) (ucons h) /\
  (forall h1 h2, h = h1 ++ UCalc :: h2 -> forall a c, In (a, c) (ucons h1) ->
     con_val (Rnum Rlit) Rbuiltins (env_of (ctab (crun (Rnum Rlit) Rbuiltins (cinit (fun _ => 0%R)) (map to_cop h1)))) c <> None) /\
  latest 5%nat (rev (map to_cop h)) = Some (AInt 3 2).
Proof. exact free_hist_ok. Qed.

(** C03 without the proviso is false: duplicates appear and an older constraint
    decides the value *)
Theorem C03_last_constraint_wins_refuted : exists (h : list (cop R)) mem s s' a x,
  s = crun (Rnum Rlit) Rbuiltins (cinit mem) h /\
  fill_variables (Rnum Rlit) Rbuiltins s = (s', Ok tt) /\
  latest a (rev h) = Some x /\ ~ NoDup (map cvar (cons_ s)) /\
  ~ arg_val (Rnum Rlit) Rbuiltins (ctab s) x (cmem s' a).
Proof. exact last_wins_refuted. Qed.
Print Assumptions C03_last_constraint_wins_refuted.

(** C04: evaluation of the constraints *)
Theorem C04_values {T : Type} :
  forall (N : numops T) (builtins : list (builtin T)) (s : cstate T) cs,
  wf (ctab s) -> mwf (cdvdp s) -> table s cs ->
  (forall a c, In (a, c) cs -> con_val N builtins (env_of (ctab s)) c <> None) ->
  exists s', fill_variables N builtins s = (s', Ok tt) /\ ctab s' = ctab s /\ table s' cs /\
    (forall a, last_con a cs = None -> cmem s' a = cmem s a) /\
    (forall a c, last_con a cs = Some c -> con_val N builtins (env_of (ctab s)) c = Some (cmem s' a)) /\
    (forall j e a c, nth_error (cons_ s') j = Some e -> nth_error cs j = Some (a, c) ->
       cref e = existsb (is_free (ctab s)) (con_pars c)).
Proof. exact fill_values. Qed.
Print Assumptions C04_values.

(** C04: an undefined parameter raises constraintError; constraints before it
    have been evaluated, everything else is as it was *)
Theorem C04_undefined_parameter {T : Type} :
  forall (N : numops T) (builtins : list (builtin T)) (s : cstate T) cs1 a c cs2 n,
  wf (ctab s) -> mwf (cdvdp s) -> table s (cs1 ++ (a, c) :: cs2) ->
  (forall a c, In (a, c) cs1 -> con_val N builtins (env_of (ctab s)) c <> None) ->
  In n (con_pars c) -> getpar (ctab s) n = Err ErrUnassigned ->
  exists s', fill_variables N builtins s = (s', Err ErrConstraint) /\ ctab s' = ctab s /\
    forall b, cmem s' b = match last_con b cs1 with
                         | Some k => match con_val N builtins (env_of (ctab s)) k with Some v => v | None => cmem s b end
                         | None => cmem s b end.
Proof. exact fill_variables_undefined. Qed.
Print Assumptions C04_undefined_parameter.

(** C04: whatever the formulas and the outcome, no unconstrained variable changes *)
Theorem C04_unconstrained_untouched {T : Type} :
  forall (N : numops T) (builtins : list (builtin T)) (s s' : cstate T) r,
  fill_variables N builtins s = (s', r) -> mwf (cdvdp s) ->
  forall a, (forall e, In e (cons_ s) -> cvar e <> a) -> cmem s' a = cmem s a.
Proof. exact fill_untouched. Qed.
Print Assumptions C04_unconstrained_untouched.

(** C06: a formula naming an undefined parameter is rejected with constraintError *)
Theorem C06_undefined_parameter {T : Type} :
  forall (N : numops T) (builtins : list (builtin T)) (t : ptab T) line e n,
  wf t -> gexp line e -> In n (pars e) -> getpar t n = Err ErrUnassigned ->
  parse N builtins t line = Err ErrConstraint.
Proof. exact parse_undefined. Qed.
Print Assumptions C06_undefined_parameter.

Example C06_undefined_case : wf (@ptab_init R) /\ gexp case_line case_tree /\ In 7%Z (pars case_tree) /\
  getpar (@ptab_init R) 7 = Err ErrUnassigned.
Proof. exact undefined_case. Qed.

(** C05: after a successful calculation the derivative table holds the true
    partial derivatives of every constraint in every free parameter, occurring
    or not, whatever calculations, parameter changes and fixes came before *)
Theorem C05_derivative_table :
  forall mem (h : list (uop R)) s',
  Forall (fun ac => con_ok (snd ac) /\ ids_ok (snd ac)) (ucons h) -> NoDup (map fst (ucons h)) ->
  let s := crun (Rnum Rlit) Rbuiltins (cinit mem) (map to_cop h) in
  (forall a c, In (a, c) (ucons h) -> con_meaning (env_of (ctab s)) c <> None) ->
  fill_variables (Rnum Rlit) Rbuiltins s = (s', Ok tt) ->
  forall j a c n k x0, nth_error (ucons h) j = Some (a, c) -> con_smooth (env_of (ctab s)) c ->
  (0 <= n < 4294967296)%Z -> parfind (ctab s) n = Some k -> is_free (ctab s) n = true -> getpar (ctab s) n = Ok x0 ->
  exists dx, mx_get (cdvdp s') j k = Ok dx /\ derivable_pt_lim (con_fun (env_of (ctab s)) c n) x0 dx.
Proof. exact gradient_history. Qed.
Print Assumptions C05_derivative_table.

(** hypotheses of C04 and C05 met by a history with a formula, FSQR and a fixed parameter *)
Example C04_C05_case :
  let s := crun (Rnum Rlit) Rbuiltins (cinit (fun _ => 0%R)) (map to_cop good_hist) in
  Forall (fun ac => con_ok (snd ac) /\ ids_ok (snd ac)) (ucons good_hist) /\
  NoDup (map fst (ucons good_hist)) /\ wf (ctab s) /\ mwf (cdvdp s) /\ table s (ucons good_hist) /\
  con_meaning (env_of (ctab s)) (KForm case_line case_tree) = Some 9%R /\
  con_meaning (env_of (ctab s)) (KPar KSqr 7) = Some 9%R /\
  con_smooth (env_of (ctab s)) (KForm case_line case_tree) /\
  is_free (ctab s) 7 = true /\ is_free (ctab s) 3 = false.
Proof. exact good_hist_ok. Qed.

(** C05 fails once a constraint is replaced: the old derivative stays *)
Theorem C05_derivative_table_refuted : exists (h : list (uop R)) mem s s' a c n k x0 dx,
  Forall (fun ac => con_ok (snd ac) /\ ids_ok (snd ac)) (ucons h) /\
  s = crun (Rnum Rlit) Rbuiltins (cinit mem) (map to_cop h) /\
  fill_variables (Rnum Rlit) Rbuiltins s = (s', Ok tt) /\ table s' [(a, c)] /\
  parfind (ctab s) n = Some k /\ is_free (ctab s) n = true /\ getpar (ctab s) n = Ok x0 /\
  mx_get (cdvdp s') 0 k = Ok dx /\ ~ derivable_pt_lim (con_fun (env_of (ctab s)) c n) x0 dx.
Proof. exact stale_refuted. Qed.
Print Assumptions C05_derivative_table_refuted.
