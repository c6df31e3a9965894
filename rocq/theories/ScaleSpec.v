(** Specification: constraints of phase scale factors. *)
From Coq Require Import List Arith ZArith Reals Bool.
From Verif Require Import Base ParamModel ParserSpec MathSpec ConModel ConSpec GaussSpec PdfModel PdfSpec LayoutModel LayoutSpec TheoryModel TheorySpec.
Import ListNotations.
Local Open Scope R_scope.

(** a constant plus multiples of the parameters, for all values of the parameters *)
Definition affine (st : cstate R) (c : con) : Prop :=
  exists w0 w, forall p, con_smooth (env_of (ctab (with_pars st p))) c /\
    con_meaning (env_of (ctab (with_pars st p))) c = Some (w0 + S1 (length (pval (ctab st))) (fun l => w l * p l)).

(** parameter numbers as the user may give them *)
Definition numbers_ok (c : con) : Prop := forall n, In n (con_pars c) -> (0 <= n < 4294967296)%Z.

(** all constraints are of phase scale factors, one for each, and affine *)
Definition scales_only (addr : rvar -> nat) (nph : nat) (st : cstate R) (cs : list (nat * con)) : Prop :=
  NoDup (map fst cs) /\ forall a c, In (a, c) cs ->
    (exists ip, (ip < nph)%nat /\ a = addr (PV ip FPscale)) /\ con_ok c /\ numbers_ok c /\ affine st c.

(** the phases and data sets that the memory holds, atoms moved into their blocks *)
Definition phases_in (addr : rvar -> nat) (ph : list cphase) (mem : nat -> R) : list cphase := load_phases addr (wrap_mem addr ph mem) ph.
Definition data_in (addr : rvar -> nat) (mem : nat -> R) (is : nat) (s : tset) : cdata := load_set addr mem is (ts_data s).

(** what a calculation of the PDF needs *)
Definition ready (addr : rvar -> nat) (ph : list cphase) (sets : list tset) (mem : nat -> R) : Prop :=
  (forall p, In p (phases_in addr ph mem) -> exists de, phase_lattice p = Ok de) /\
  forall is s, nth_error sets is = Some s -> let d := data_in addr mem is s in
    good_grid d /\ off_origin d /\ good_filter d /\ length (ts_sel s) = length ph /\
    forall ip gi gj p, nth_error (ts_sel s) ip = Some (Some (gi, gj)) -> nth_error (phases_in addr ph mem) ip = Some p -> sane_phase d p.

(** the phases with other scale factors *)
Definition scale_ph (y : R) (p : cphase) : cphase :=
  mkCp (cp_a0 p) (cp_win p) (cp_icc p) (cp_atoms p) (cp_delta2 p) (cp_delta1 p) y (cp_spd p) (cp_stepcut p) (cp_sratio p) (cp_rcut p).
Fixpoint rescale (x : nat -> R) (k : nat) (ps : list cphase) : list cphase :=
  match ps with [] => [] | p :: r => scale_ph (x k) p :: rescale x (S k) r end.
Definition unit_at (l m : nat) : R := if (m =? l)%nat then 1 else 0.

(** scale factor of phase ip for the parameters p *)
Definition scale_of (addr : rvar -> nat) (st : cstate R) (cs : list (nat * con)) (p : nat -> R) (ip : nat) : R :=
  match last_con (addr (PV ip FPscale)) cs with
  | Some c => match con_meaning (env_of (ctab (with_pars st p))) c with Some v => v | None => 0 end
  | None => cmem st (addr (PV ip FPscale))
  end.

(** F ip is the PDF of data set is, from point lo to point hi, when only phase ip is
    there, with scale factor 1 *)
Definition phase_parts (addr : rvar -> nat) (ph : list cphase) (mem : nat -> R) (fuel is : nat) (s : tset) (lo hi : nat) (F : nat -> nat -> R) : Prop :=
  forall ip, (ip < length ph)%nat -> exists des t, let ps := phases_in addr ph mem in
    Forall2 (fun p de => phase_lattice p = Ok de) ps des /\
    determine fuel (data_in addr mem is s) (entries (combine (rescale (unit_at ip) 0 ps) des) (ts_sel s)) = Ok (Z.of_nat lo, Z.of_nat hi, t) /\
    forall i, (lo <= i <= hi)%nat -> nth i t None = Some (F ip i).
