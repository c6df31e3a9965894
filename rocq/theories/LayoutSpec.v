(** Specification of the table of refinable variables. *)
From Coq Require Import List Arith.
From Verif Require Import Base ConModel LayoutModel.
Import ListNotations.

(** a variable that exists when the phases have so many atoms *)
Definition phase_field_ok (f : phase_field) : Prop := match f with FA0 j | FWin j => j < 3 | _ => True end.
Definition atom_field_ok (f : atom_field) : Prop := match f with FPos j => j < 3 | FU j => j < 6 | FOcc => True end.
Definition exists_var (natoms : list nat) (nset : nat) (v : rvar) : Prop :=
  match v with
  | PV ip f => ip < length natoms /\ phase_field_ok f
  | AV ip ia f => ip < length natoms /\ ia < nth ip natoms 0 /\ atom_field_ok f
  | SV is _ => is < nset
  end.
(** number inside its block *)
Definition phase_no (f : phase_field) : nat :=
  match f with FA0 j => j | FWin j => 3 + j | FDelta2 => 6 | FDelta1 => 7 | FPscale => 8 | FSpd => 9 | FSratio => 10 end.
Definition atom_no_ (f : atom_field) : nat := match f with FPos j => j | FU j => 3 + j | FOcc => 9 end.
Definition set_no (f : set_field) : nat := match f with FDscale => 0 | FQdamp => 1 | FQbroad => 2 end.
(** a phase takes 11 slots and 10 for each of its atoms *)
Fixpoint phase_size (natoms : list nat) : nat := match natoms with [] => 0 | n :: r => 11 + 10 * n + phase_size r end.
Definition phase_start (natoms : list nat) (ip : nat) : nat := phase_size (firstn ip natoms).
Definition slot (natoms : list nat) (v : rvar) : nat :=
  match v with
  | PV ip f => phase_start natoms ip + phase_no f
  | AV ip ia f => phase_start natoms ip + 11 + 10 * ia + atom_no_ f
  | SV is f => phase_size natoms + 3 * is + set_no f
  end.
(** the error of a variable: of its constraint when it is refined, else as before *)
Definition errors_of {T} (find : rvar -> option nat) (natoms : list nat) (nset : nat) (dvar : list T) (sd sd' : rvar -> T) : Prop :=
  forall v,
  (exists_var natoms nset v -> forall c, find v = Some c -> nth_error dvar c = Some (sd' v)) /\
  ((exists_var natoms nset v -> find v = None) -> sd' v = sd v).
(** a refined constraint number c is on the variable with address a: entry c of the
    table has this address and is not a fixed one *)
Definition refined_by (l : list centry) (a c : nat) : Prop := exists e, nth_error l c = Some e /\ cvar e = a /\ cref e = true.
(** the errors dvar of the constraints are now the errors of exactly the variables
    under those constraints; addr gives the address of a variable *)
Definition errors_spread {T} (addr : rvar -> nat) (l : list centry) (natoms : list nat) (nset : nat) (dvar : list T) (sd sd' : rvar -> T) : Prop :=
  forall v,
  (exists_var natoms nset v -> forall c, refined_by l (addr v) c -> nth_error dvar c = Some (sd' v)) /\
  (~ (exists_var natoms nset v /\ exists c, refined_by l (addr v) c) -> sd' v = sd v).
(** the table built by fit_setup: slot of each variable, and the stored offsets *)
Definition layout_right (find : rvar -> option nat) (natoms : list nat) (nset : nat) (s : layout) : Prop :=
  length (ly_refvar s) = phase_size natoms + 3 * nset /\ length (ly_sdptr s) = phase_size natoms + 3 * nset /\
  (forall v, exists_var natoms nset v -> nth_error (ly_refvar s) (slot natoms v) = Some (find v) /\ nth_error (ly_sdptr s) (slot natoms v) = Some v) /\
  (forall ip, ip < length natoms -> nth_error (ly_phase s) ip = Some (slot natoms (PV ip (FA0 0)))) /\
  (forall ip ia, ip < length natoms -> ia < nth ip natoms 0 -> exists l, nth_error (ly_atom s) ip = Some l /\ nth_error l ia = Some (slot natoms (AV ip ia (FPos 0)))) /\
  (forall is, is < nset -> nth_error (ly_set s) is = Some (slot natoms (SV is FDscale))).
