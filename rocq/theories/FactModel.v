(** Model of the scattering factors that the calculation reads: every atom holds a
    pointer to an AtomType in the table of its phase, which set_scat and reset_scat
    change in place. *)
From Coq Require Import Ascii List Arith Reals Bool.
From Verif Require Import Base ParserModel PdfModel ElementTable ScatModel.
Import ListNotations.
Local Open Scope R_scope.

(** models Atom.h:46 atom_type: an entry of LocalPeriodicTable::instance() or of the
    table of a phase.  Entries of a std::map stay where they are, so the key
    identifies them.  Phases are only appended or all deleted, so the number
    identifies the phase. *)
Inductive aptr : Type := InShared (k : text) | InPhase (p : nat) (k : text).
(** models pdffit.h:484 _local_periodic_table and the atom_type of the atoms, 520 *)
Record kphase : Type := mkKp { kp_tab : ltable; kp_types : list aptr }.
(** the table of LocalPeriodicTable::instance() and the phases *)
Record kworld : Type := mkKw { kw_shared : ltable; kw_ph : list kphase }.

(** reads the entry a pointer points to; tab is the table of phase n *)
Definition deref (shared : ltable) (n : nat) (tab : ltable) (a : aptr) : outcome (R * R) :=
  match a with
  | InShared k => match lt_find shared k with Some v => Ok v | None => UB end
  | InPhase m k => if (m =? n)%nat then match lt_find tab k with Some v => Ok v | None => UB end else UB
  end.
(** AtomType::symbol of the entry: entries are stored under their symbol *)
Definition symbol_at (a : aptr) : text := match a with InShared k => k | InPhase _ k => k end.

Section Table.
Variable tbl : list element.

(** models Atom.cc:52-88, the symbol of an atom is looked up in the shared table *)
Definition read_type (shared : ltable) (sym : text) : outcome (aptr * ltable) :=
  omap (fun x => (InShared (fst (fst x)), snd x)) (local_lookup tbl shared sym).
(** models stru.cc:412-417 reassign_atom_type in phase n *)
Definition reassign (n : nat) (tab : ltable) (a : aptr) : outcome (aptr * ltable) :=
  omap (fun x => (InPhase n (symbol_at a), snd x)) (local_symbol tbl tab (symbol_at a)).
(** models stru.cc:398-409 read_atoms for the symbols of the atoms: the shared table
    afterwards, and the phase or the exception *)
Fixpoint read_types (n : nat) (shared : ltable) (ph : kphase) (syms : list text) : ltable * outcome kphase :=
  match syms with
  | [] => (shared, Ok ph)
  | s :: r =>
      match read_type shared s with
      | Ok (a, shared) =>
          match reassign n (kp_tab ph) a with
          | Ok (a, tab) => read_types n shared (mkKp tab (kp_types ph ++ [a])) r
          | Err e => (shared, Err e)
          | UB => (shared, UB)
          | NoFuel => (shared, NoFuel)
          end
      | Err e => (shared, Err e)
      | UB => (shared, UB)
      | NoFuel => (shared, NoFuel)
      end
  end.

(** the calls: read_struct of a structure with these atoms, PdfFit::reset, set_scat,
    reset_scat and get_scat with phase p as the current one; get_scat without a phase *)
Inductive kcall : Type :=
  | KRead (syms : list text)
  | KClear
  | KSet (p : nat) (tp : ascii) (pat : text) (v : R)
  | KReset (p : nat) (pat : text)
  | KGet (p : nat) (tp : ascii) (pat : text)
  | KGetNone (tp : ascii) (pat : text).
Definition on_phase (w : kworld) (p : nat) (f : ltable -> ltable) : kworld :=
  match nth_error (kw_ph w) p with
  | Some ph => mkKw (kw_shared w) (upd_nth (kw_ph w) p (mkKp (f (kp_tab ph)) (kp_types ph)))
  | None => w
  end.
(** models stru.cc:128-166 (a phase that cannot be read is deleted), pdffit.h:145,
    scatlen.cc:74-105 and pdffit.cc:355-369 *)
Definition kstep (w : kworld) (c : kcall) : kworld :=
  match c with
  | KRead syms =>
      let (shared, r) := read_types (length (kw_ph w)) (kw_shared w) (mkKp [] []) syms in
      mkKw shared (match r with Ok ph => kw_ph w ++ [ph] | _ => kw_ph w end)
  | KClear => mkKw (kw_shared w) []
  | KSet p tp pat v => on_phase w p (fun t => fst (set_scat tbl t tp pat v))
  | KReset p pat => on_phase w p (fun t => fst (reset_scat tbl t pat))
  | KGet p tp pat => on_phase w p (fun t => match local_lookup tbl t pat with Ok (_, _, t) => t | _ => t end)
  | KGetNone tp pat => mkKw (match local_lookup tbl (kw_shared w) pat with Ok (_, _, t) => t | _ => kw_shared w end) (kw_ph w)
  end.
Definition krun (cs : list kcall) : kworld := fold_left kstep cs (mkKw [] []).

(** models pdf.cc:795 and 811, atom_type->sf(tp) of atom i of phase p *)
Definition atom_factor (w : kworld) (p i : nat) (tp : ascii) : outcome R :=
  match nth_error (kw_ph w) p with
  | Some ph => match nth_error (kp_types ph) i with
               | Some a => obind (deref (kw_shared w) p (kp_tab ph) a) (sf tp)
               | None => UB
               end
  | None => UB
  end.
End Table.
