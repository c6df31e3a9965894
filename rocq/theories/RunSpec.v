(** Specification: parameters, variables and PDFs that belong together. *)
From Coq Require Import List Arith ZArith Reals Bool.
From Verif Require Import Base ParamModel ParserModel ParserSpec ConModel ConSpec MathSpec MetricModel PdfModel LayoutModel LayoutSpec TheoryModel TheorySpec RunModel.
Import ListNotations.
Local Open Scope R_scope.

(** cell a is coordinate k of an atom, in a block of icc cells *)
Definition coordinate (addr : rvar -> nat) (ph : list cphase) (a : nat) (icc : Z) : Prop :=
  exists ip p ia k, nth_error ph ip = Some p /\ (ia < length (cp_atoms p))%nat /\ (k < 3)%nat /\ a = addr (AV ip ia (FPos k)) /\ icc = cp_icc p k.
(** y stands for x in cell a: the same number, or for a coordinate the same less whole
    blocks, inside the block *)
Definition stands_for (addr : rvar -> nat) (ph : list cphase) (a : nat) (x y : R) : Prop :=
  ((forall icc, ~ coordinate addr ph a icc) -> y = x) /\
  (forall icc, coordinate addr ph a icc -> Rabs y < IZR icc /\ exists z : Z, y = x - IZR z * IZR icc).

(** [st] and the PDFs [pdf] belong to the parameter values p: these are what getpar
    reports, constrained variables have the values of their constraints, all others those
    they had in st0, and the PDFs are those of the variables in memory *)
Definition settled (addr : rvar -> nat) (N : numops R) (builtins : list (builtin R)) (fuel : nat) (ph : list cphase) (sets : list tset) (cs : list (nat * con))
    (st0 st : cstate R) (pdf : list (Z * Z * list num)) (p : nat -> R) : Prop :=
  (length (pval (ctab st)) = length (pval (ctab st0)) /\ pid (ctab st) = pid (ctab st0) /\ pfree (ctab st) = pfree (ctab st0) /\
   forall l, (l < length (pval (ctab st)))%nat -> nth_error (pval (ctab st)) l = Some (p (S l))) /\
  (forall a c, last_con a cs = Some c -> exists x, con_val N builtins (env_of (ctab st)) c = Some x /\ stands_for addr ph a x (cmem st a)) /\
  (forall a, ~ In a (map fst cs) -> stands_for addr ph a (cmem st0 a) (cmem st a)) /\
  let ps := load_phases addr (cmem st) ph in
  exists des, Forall2 (fun q de => phase_lattice q = Ok de) ps des /\ length pdf = length sets /\
    forall is s, nth_error sets is = Some s -> exists r, nth_error pdf is = Some r /\
      determine fuel (load_set addr (cmem st) is (ts_data s)) (entries (combine ps des) (ts_sel s)) = Ok r.
