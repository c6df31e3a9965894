(** Specification: a parameter used in any number of constraints. *)
From Coq Require Import List Arith ZArith Reals Bool.
From Verif Require Import Base ParamModel ParserModel ParserSpec MathSpec ConModel ConSpec PdfModel PdfSpec LayoutModel LayoutSpec DerivSpec TheoryModel TheorySpec ScaleSpec GradSpec.
Import ListNotations.
Local Open Scope R_scope.

(** parameter l exists and is free; every constraint in which it is used is smooth at p *)
Definition smooth_in (st : cstate R) (cs : list (nat * con)) (p : nat -> R) (l : nat) : Prop :=
  (1 <= l <= length (pval (ctab st)))%nat /\ free_of st l = true /\
  forall a c, In (a, c) cs -> uses st c l -> con_smooth (env_of (ctab (with_pars st p))) c.
(** the variables when parameter l is x: those of the calculation for p, wrapped
    coordinates included, each moved by the change of its constraint *)
Definition along (addr : rvar -> nat) (ph : list cphase) (st : cstate R) (cs : list (nat * con)) (p : nat -> R) (l : nat) (x : R) (a : nat) : R :=
  wrap_mem addr ph (mem_at st cs p) a + (mem_at st cs (moved p l x) a - mem_at st cs p a).
(** the constraints in which parameter l is used are those of scale factors, particle
    diameters, occupancies and Q-damping factors *)
Definition keeps_peaks (addr : rvar -> nat) (ph : list cphase) (sets : list tset) (st : cstate R) (cs : list (nat * con)) (l : nat) : Prop :=
  forall a c, In (a, c) cs -> uses st c l -> exists v, exists_var (atoms_in ph) (length sets) v /\ a = addr v /\ peaks_fixed v.
