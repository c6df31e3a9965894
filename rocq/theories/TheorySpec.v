(** Specification of the calculation during a refinement. *)
From Coq Require Import List Arith ZArith Reals Bool.
From Verif Require Import Base ParamModel ParserModel ParserSpec ConModel ConSpec PdfModel LayoutModel LayoutSpec LsModel TheoryModel.
Import ListNotations.
Local Open Scope R_scope.

(** no two variables share their memory *)
Definition apart (addr : rvar -> nat) (natoms : list nat) (nset : nat) : Prop :=
  forall v w, exists_var natoms nset v -> exists_var natoms nset w -> addr v = addr w -> v = w.
Definition atoms_in (ph : list cphase) : list nat := map (fun p => length (cp_atoms p)) ph.
(** cells of at least one unit *)
Definition blocks_ok (ph : list cphase) : Prop := forall p i, In p ph -> (i < 3)%nat -> (0 < cp_icc p i)%Z.

Section Spec.
Variable addr : rvar -> nat.
Context (N : numops R) (builtins : list (builtin R)).

(** all constraints have values *)
Definition solvable (st : cstate R) (cs : list (nat * con)) : Prop :=
  forall a c, In (a, c) cs -> con_val N builtins (env_of (ctab st)) c <> None.

(** calculations for one set of parameters after the other, whatever their outcome *)
Definition visit (fuel : nat) (ly : layout) (ph : list cphase) (sets : list tset) (ps : list (nat -> R)) (st : cstate R) : cstate R :=
  fold_left (fun s p => fst (theory_diff addr N builtins fuel ly ph sets (with_pars s p))) ps st.
End Spec.
