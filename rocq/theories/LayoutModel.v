(** Model of the table of refinable variables: PdfFit::fit_setup (fit.cc:174-285)
    after its call of fill_variables, Fit::fill_errors (fit.cc:820-835) and the
    counters behind PdfFit::getnpar (pdffit.h:253). *)
From Coq Require Import List Arith.
From Verif Require Import Base ConModel.
Import ListNotations.

(** the refinable variables: members of a Phase, an Atom or a DataSet.  The member
    holding the standard deviation (da0[j] for a0[j] and so on) is named by the
    same name. *)
Inductive phase_field : Type := FA0 (j : nat) | FWin (j : nat) | FDelta2 | FDelta1 | FPscale | FSpd | FSratio.
Inductive atom_field : Type := FPos (j : nat) | FU (j : nat) | FOcc.
Inductive set_field : Type := FDscale | FQdamp | FQbroad.
Inductive rvar : Type := PV (ip : nat) (f : phase_field) | AV (ip ia : nat) (f : atom_field) | SV (is : nat) (f : set_field).

Definition rvar_eq_dec (v w : rvar) : {v = w} + {v <> w}.
Proof. repeat (decide equality || apply Nat.eq_dec). Defined.

(** refvar, sdptr and the members offset of phases, atoms and data sets *)
Record layout : Type := mkLay {
  ly_refvar : list (option nat); ly_sdptr : list rvar;
  ly_phase : list nat; ly_atom : list (list nat); ly_set : list nat }.

Section Setup.
(** fit.vfind applied to a variable; None is -1 *)
Variable find : rvar -> option nat.

(** refvar.push_back and sdptr.push_back *)
Definition push (s : layout) (v : rvar) : layout :=
  mkLay (ly_refvar s ++ [find v]) (ly_sdptr s ++ [v]) (ly_phase s) (ly_atom s) (ly_set s).
(** models fit.cc:228-249, one atom; the offset goes to the list of the last phase *)
Definition setup_atom (ip : nat) (s : layout) (ia : nat) : layout :=
  let s := mkLay (ly_refvar s) (ly_sdptr s) (ly_phase s)
             (removelast (ly_atom s) ++ [last (ly_atom s) [] ++ [length (ly_refvar s)]]) (ly_set s) in
  let s := fold_left (fun s j => push s (AV ip ia (FPos j))) [0; 1; 2] s in
  let s := fold_left (fun s j => push s (AV ip ia (FU j))) [0; 1; 2; 3; 4; 5] s in
  push s (AV ip ia FOcc).
(** models fit.cc:196-250, one phase with n atoms *)
Definition setup_phase (s : layout) (x : nat * nat) : layout :=
  let (ip, n) := x in
  let s := mkLay (ly_refvar s) (ly_sdptr s) (ly_phase s ++ [length (ly_refvar s)]) (ly_atom s ++ [[]]) (ly_set s) in
  let s := fold_left (fun s j => push s (PV ip (FA0 j))) [0; 1; 2] s in
  let s := fold_left (fun s j => push s (PV ip (FWin j))) [0; 1; 2] s in
  let s := push s (PV ip FDelta2) in
  let s := push s (PV ip FDelta1) in
  let s := push s (PV ip FPscale) in
  let s := push s (PV ip FSpd) in
  let s := push s (PV ip FSratio) in
  fold_left (setup_atom ip) (seq 0 n) s.
(** models fit.cc:252-266, one data set *)
Definition setup_set (s : layout) (is : nat) : layout :=
  let s := mkLay (ly_refvar s) (ly_sdptr s) (ly_phase s) (ly_atom s) (ly_set s ++ [length (ly_refvar s)]) in
  let s := push s (SV is FDscale) in
  let s := push s (SV is FQdamp) in
  push s (SV is FQbroad).
(** models fit.cc:191-277; natoms of the phases, nset, and the result of getnpar *)
Definition fit_setup (natoms : list nat) (nset npar : nat) : outcome layout :=
  let s := fold_left setup_phase (combine (seq 0 (length natoms)) natoms) (mkLay [] [] [] [] []) in
  let s := fold_left setup_set (seq 0 nset) s in
  if (length (ly_refvar s) =? npar)%nat then Ok s else Err ErrConstraint.
End Setup.

(** models fit.cc:820-835 Fit::fill_errors; sd holds the standard deviations *)
Section Errors.
Variable T : Type.
Definition fill_errors (s : layout) (dvar : list T) (sd : rvar -> T) : outcome (rvar -> T) :=
  ofold (fun sd i =>
           obind (rd (ly_refvar s) i) (fun icon =>
           match icon with
           | None => Ok sd
           | Some c => obind (rd (ly_sdptr s) i) (fun v => obind (rd dvar c) (fun x =>
                       Ok (fun w => if rvar_eq_dec w v then x else sd w)))
           end)) (seq 0 (length (ly_sdptr s))) sd.
End Errors.

(** ** the counters *)
(** models stru.cc:128-166 and pdf.cc:102, 1313, 1338, 1364 (a structure or data
    set read; nothing is counted when reading throws) and pdffit.cc:86-96 *)
Inductive count_op : Type := ReadStruct (n : nat) | ReadFails | NewSet | ResetAll.
(** the phases with their natoms, total, nphase, nset *)
Record counts : Type := mkCo { co_natoms : list nat; co_total : nat; co_nphase : nat; co_nset : nat }.
Definition count_step (s : counts) (o : count_op) : counts :=
  match o with
  | ReadStruct n => mkCo (co_natoms s ++ [n]) (co_total s + n) (S (co_nphase s)) (co_nset s)
  | ReadFails => s
  | NewSet => mkCo (co_natoms s) (co_total s) (co_nphase s) (S (co_nset s))
  | ResetAll => mkCo [] 0 0 0
  end.
Definition count_run (ops : list count_op) : counts := fold_left count_step ops (mkCo [] 0 0 0).
(** models pdffit.h:253 with n_ex, n_st, n_at of pdffit.h:52-54 *)
Definition getnpar (s : counts) : nat := co_nset s * 3 + co_nphase s * 11 + co_total s * 10.
