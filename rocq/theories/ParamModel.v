(** Model of the parameter table of class Fit.
    Source: src/extensions/libpdffit2/fit.cc and pdffit.h *)
From Coq Require Import List ZArith.
From Verif Require Import Base.
Import ListNotations.
Local Open Scope Z_scope.

Section Param.
Context {T : Type}.   (* the C++ [double]s held by the table; values are only copied *)

(** models pdffit.h:161-164: vectors [p], [ip], [id] of class Fit
    ([ip] is a vector<int> used as flags; [id] holds unsigned 32-bit ids). *)
Record ptab : Type := mkPtab { pval : list T; pfree : list bool; pid : list Z }.

(** models pdffit.cc:110-113 (Fit::reset clears p, id, ip) *)
Definition ptab_init : ptab := mkPtab [] [] [].

(** models std::find over [id] used in fit.cc:703-714; position or None *)
Fixpoint find_pos (n : Z) (l : list Z) : option nat :=
  match l with
  | [] => None
  | h :: t => if Z.eqb h n then Some O
              else match find_pos n t with Some k => Some (S k) | None => None end
  end.

(** models fit.cc:703-714 Fit::parfind; the [unsigned int] argument conversion
    is the [u32]; C++ returns -1 for [None] *)
Definition parfind (t : ptab) (n : Z) : option nat := find_pos (u32 n) (pid t).

(** models fit.cc:716-729 Fit::setpar *)
Definition setpar (t : ptab) (n : Z) (v : T) : ptab :=
  match parfind t n with
  | Some i => mkPtab (upd i v (pval t)) (pfree t) (pid t)
  | None => mkPtab (pval t ++ [v]) (pfree t ++ [true]) (pid t ++ [u32 n])
  end.

(** models fit.cc:731-741 Fit::getpar; [p\[ipar\]] out of range would be UB *)
Definition getpar (t : ptab) (n : Z) : outcome T :=
  match parfind t n with
  | None => Err ErrUnassigned
  | Some i => match nth_error (pval t) i with Some v => Ok v | None => UB end
  end.

(** models fit.cc:743-775 Fit::fixpar ([b = false]) and Fit::freepar
    ([b = true]).  The argument is an [int]; pdffit.h:56 has ALL = -1, and the
    same [int] is converted to unsigned by parfind.  [ip\[ipar\]] out of range
    would be UB. *)
Definition setflag (b : bool) (t : ptab) (n : Z) : ptab * outcome unit :=
  if Z.eqb n (-1) then
    (mkPtab (pval t) (map (fun _ => b) (pfree t)) (pid t), Ok tt)
  else
    match parfind t n with
    | None => (t, Err ErrUnassigned)
    | Some i =>
        if (i <? length (pfree t))%nat then
          (mkPtab (pval t) (upd i b (pfree t)) (pid t), Ok tt)
        else (t, UB)
    end.

Definition fixpar := setflag false.
Definition freepar := setflag true.

(** The calls a user can make on the table.  models misc.cc:723-742
    (setpar_dbl), 1027-1044 (getpar), 1050-1092 (fixpar, freepar) *)
Inductive pop : Type :=
| PSet (n : Z) (v : T)
| PGet (n : Z)
| PFix (n : Z)
| PFree (n : Z).

Inductive pout : Type :=
| PNone                    (* call returned nothing *)
| PVal (v : T)
| PErr (e : err)
| PUB.

Definition out_of_unit (o : outcome unit) : pout :=
  match o with Ok _ => PNone | Err e => PErr e | _ => PUB end.

Definition out_of_val (o : outcome T) : pout :=
  match o with Ok v => PVal v | Err e => PErr e | _ => PUB end.

Definition pstep (t : ptab) (o : pop) : ptab * pout :=
  match o with
  | PSet n v => (setpar t n v, PNone)
  | PGet n => (t, out_of_val (getpar t n))
  | PFix n => let (t', r) := fixpar t n in (t', out_of_unit r)
  | PFree n => let (t', r) := freepar t n in (t', out_of_unit r)
  end.

Definition prun (t : ptab) (h : list pop) : ptab :=
  fold_left (fun s o => fst (pstep s o)) h t.

End Param.
Arguments ptab T : clear implicits.
Arguments pop T : clear implicits.
Arguments pout T : clear implicits.
