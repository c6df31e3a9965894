(** Specification vocabulary for the quantities of a cell and their deviations. *)
From Coq Require Import Ascii String.
From Coq Require Import List Arith ZArith Reals.
From Verif Require Import Base MetricModel MetricSpec ParserModel DataModel DataSpec FmtModel OutModel OutSpec.
From Verif Require SaveModel.
Import ListNotations.
Local Open Scope R_scope.

(** edges are positive, angles between 0 and 180 degrees *)
Definition plain_cell (a w : v3) : Prop := forall k, (k < 3)%nat -> 0 < a k /\ 0 < w k < 180.
(** volume; length of a reciprocal edge; angle between the two other reciprocal edges *)
Definition volume (a w : v3) : R := sqrt (det33 (metric a w)).
Definition redge (i : nat) (a w : v3) : R := sqrt (rmetric a w i i).
Definition rangle (i : nat) (a w : v3) : R :=
  let j := ((i + 1) mod 3)%nat in let k := ((i + 2) mod 3)%nat in
  180 / PI * acos (rmetric a w j k / (redge j a w * redge k a w)).
(** [d] is, to first order, at least the change of a quantity for any changes of edges
    and angles within da and dw *)
Definition moved (a e : v3) (s : R) : v3 := fun k => a k + s * e k.
Definition bounds (a w da dw : v3) (f : v3 -> v3 -> R) (d : R) : Prop :=
  forall ea ew, (forall k, (k < 3)%nat -> Rabs (ea k) <= da k /\ Rabs (ew k) <= dw k) ->
  exists l, derivable_pt_lim (fun s => f (moved a ea s) (moved w ew s)) 0 l /\ Rabs l <= d.
(** [d] is the change, to first order, for some changes within da and dw *)
Definition attained (a w da dw : v3) (f : v3 -> v3 -> R) (d : R) : Prop :=
  exists ea ew, (forall k, (k < 3)%nat -> Rabs (ea k) <= da k /\ Rabs (ew k) <= dw k) /\ derivable_pt_lim (fun s => f (moved a ea s) (moved w ew s)) 0 d.
(** number of cells of a block *)
Definition ncells (icc : nat -> Z) : R := IZR (icc 0%nat * icc 1%nat * icc 2%nat).
Definition total (l : list R) : R := fold_right Rplus 0 l.
(** a line with a label and values with deviations *)
Definition row_says (x : string * list (R * R)) (l : text) : Prop :=
  exists t, strip (chars (fst x)) l = Some t /\
  Forall2 shown (values (words t)) (map (fun v => (Some (SaveModel.dbl_of (fst v)), Some (SaveModel.dbl_of (snd v)))) (snd x)).
Definition trow (x dx : v3) : list (R * R) := [(x 0%nat, dx 0%nat); (x 1%nat, dx 1%nat); (x 2%nat, dx 2%nat)].
(** the rows for the cell and for the reciprocal cell; the tensors by lines *)
Definition cell_rows (a da w dw : v3) (v dv rho drho : R) (g dg : t33) : list (string * list (R * R)) :=
  [(" Lattice parameters     :", trow a da); ("           & angles     :", trow w dw);
   (" Unit cell volume       :", [(v, dv)]); (" Number density         :", [(rho, drho)]);
   (" Metric tensor          :", trow (fun i => g i 0%nat) (fun i => dg i 0%nat));
   ("                         ", trow (fun i => g i 1%nat) (fun i => dg i 1%nat));
   ("                         ", trow (fun i => g i 2%nat) (fun i => dg i 2%nat))]%string.
Definition recip_rows (a da w dw : v3) (v dv : R) (g dg : t33) : list (string * list (R * R)) :=
  [(" Recip. lat. parameters :", trow a da); ("               & angles :", trow w dw); (" Recip. unit cell vol.  :", [(v, dv)]);
   (" Recip. metric tensor   :", trow (fun i => g i 0%nat) (fun i => dg i 0%nat));
   ("                         ", trow (fun i => g i 1%nat) (fun i => dg i 1%nat));
   ("                         ", trow (fun i => g i 2%nat) (fun i => dg i 2%nat))]%string.
