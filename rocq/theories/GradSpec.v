(** Specification: derivatives of the calculated PDF with respect to a parameter. *)
From Coq Require Import List Arith ZArith Reals Bool.
From Verif Require Import Base ParamModel ParserModel ParserSpec MathSpec ConModel ConSpec MetricModel PdfModel PdfSpec LayoutModel LayoutSpec DerivSpec LsModel TheoryModel TheorySpec ScaleSpec RunModel.
Import ListNotations.
Local Open Scope R_scope.

(** the value of a constraint, and what the variables are, for the parameters p *)
Definition con_at (st : cstate R) (c : con) (p : nat -> R) : R :=
  match con_meaning (env_of (ctab (with_pars st p))) c with Some v => v | None => 0 end.
Definition mem_at (st : cstate R) (cs : list (nat * con)) (p : nat -> R) (a : nat) : R :=
  match last_con a cs with Some c => con_at st c p | None => cmem st a end.
(** parameter number l (counted from 1) is x, the others as in p *)
Definition moved (p : nat -> R) (l : nat) (x : R) : nat -> R := fun m => if (m =? l)%nat then x else p m.
Definition uses (st : cstate R) (c : con) (l : nat) : Prop := exists n, In n (con_pars c) /\ parfind (ctab st) n = Some (l - 1)%nat.

(** the phases seen by data set s, for the variables mem *)
Definition seen_by (addr : rvar -> nat) (ph : list cphase) (mem : nat -> R) (s : tset) (psel : list (option centry)) : Prop :=
  exists des, Forall2 (fun q de => phase_lattice q = Ok de) (phases_in addr ph mem) des /\ psel = entries (combine (phases_in addr ph mem) des) (ts_sel s).
(** a calculation for p is possible; all constraints have values for p and are those of
    variables whose columns C44 describes *)
Definition regular (addr : rvar -> nat) (ph : list cphase) (sets : list tset) (st : cstate R) (cs : list (nat * con)) (p : nat -> R) : Prop :=
  NoDup (map fst cs) /\ ready addr ph sets (mem_at st cs p) /\
  forall a c, In (a, c) cs -> con_ok c /\ numbers_ok c /\ con_meaning (env_of (ctab (with_pars st p))) c <> None /\
    exists v, exists_var (atoms_in ph) (length sets) v /\ a = addr v /\
    forall is s psel W C, nth_error sets is = Some s -> seen_by addr ph (mem_at st cs p) s psel -> right_limits (data_in addr (mem_at st cs p) is s) psel W C ->
      claimed is (data_in addr (mem_at st cs p) is s) psel W v.
(** parameter l is free and used in one constraint only, c of variable v, smooth at p *)
Definition enters (addr : rvar -> nat) (st : cstate R) (cs : list (nat * con)) (p : nat -> R) (l : nat) (v : rvar) (c : con) : Prop :=
  (1 <= l)%nat /\ free_of st l = true /\ In (addr v, c) cs /\ uses st c l /\ con_smooth (env_of (ctab (with_pars st p))) c /\
  forall a c', In (a, c') cs -> uses st c' l -> a = addr v.

(** point i of the PDF of data set is for the parameters p, by fit_theory without derivatives *)
Definition calculated (addr : rvar -> nat) (N : numops R) (builtins : list (builtin R)) (fuel : nat) (ph : list cphase) (sets : list tset) (st : cstate R) (is i : nat) (p : nat -> R) : num :=
  match snd (theory_plain addr N builtins fuel ph sets (with_pars st p)) with
  | Ok ts => match nth_error ts is with Some (_, _, t) => nth i t None | None => None end
  | _ => None
  end.
