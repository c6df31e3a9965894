(** Specification vocabulary for printed bond lengths and angles. *)
From Coq Require Import Ascii String.
From Coq Require Import List Arith ZArith Reals.
From Verif Require Import Base ParserModel DataModel DataSpec FmtModel FmtSpec.
From Verif Require PdfModel PdfSpec BondModel ReportModel ReportSpec.
Import ListNotations.
Local Open Scope R_scope.

(** a whole number as people write it *)
Definition decimal (z : Z) (w : text) : Prop :=
  exists n, w = print_numeral n /\ numeral_ok n /\ numeral_value n = IZR z /\ plain_int (nu_int n) /\ nu_frac n = None /\ nu_exp n = None /\
  nu_sign n = if (z <? 0)%Z then Some true else None.
(** "(#" z ")" *)
Definition index_word (z : Z) (w : text) : Prop := exists d, decimal z d /\ w = chars "(#" ++ d ++ chars ")".
(** a number with six digits, or nan *)
Definition real_word (x : PdfModel.num) (w : text) : Prop :=
  match x with None => w = chars "nan" | Some x => exists d n, dbl_ok d /\ d_val d = x /\ w = print_numeral n /\ shows_general 6 d n end.
(** a value, and its deviation in parentheses if it is more than 1e-8 of the value *)
Definition value_words (x dx : PdfModel.num) (ws : list text) : Prop :=
  exists w s, real_word x w /\ ws = w :: s /\
  match dx with
  | None => s = [chars "(NaN)"]
  | Some d => let larger := exists v, x = Some v /\ Rabs v / 100000000 < d in
              (larger -> exists u, real_word (Some d) u /\ s = [chars "(" ++ u ++ chars ")"]) /\ (~ larger -> s = [])
  end.
(** a line for the bond from atom i to atom j; short names are in columns *)
Definition bond_line (si : text) (i : Z) (sj : text) (j : Z) (x dx : PdfModel.num) (l : text) : Prop :=
  exists wi wj ws, words l = [si; wi; chars "-"; sj; wj; chars "="] ++ ws ++ [chars "A"] /\
  index_word i wi /\ index_word j wj /\ value_words x dx ws /\
  ((length si + length wi <= 9)%nat -> (length sj + length wj <= 10)%nat ->
   exists b b' r, l = chars "   " ++ (si ++ chars " " ++ wi ++ b) ++ chars " -   " ++ (sj ++ chars " " ++ wj ++ b') ++ chars "=   " ++ r /\
   length (si ++ chars " " ++ wi ++ b) = 10%nat /\ length (sj ++ chars " " ++ wj ++ b') = 12%nat).
Definition angle_line (si : text) (i : Z) (sj : text) (j : Z) (sk : text) (k : Z) (x dx : PdfModel.num) (l : text) : Prop :=
  exists wi wj wk ws, words l = [si; wi; chars "-"; sj; wj; chars "-"; sk; wk; chars "="] ++ ws ++ [chars "degrees"] /\
  index_word i wi /\ index_word j wj /\ index_word k wk /\ value_words x dx ws.
(** the atoms have symbols of the table, and there are not too many for an int *)
Definition natoms (b : BondModel.bphase) : nat := length (PdfModel.cp_atoms (BondModel.bp_ph b)).
Definition ordinary (b : BondModel.bphase) : Prop :=
  (forall k, (k < natoms b)%nat -> ReportSpec.symbol (BondModel.bp_sym b k)) /\ (Z.of_nat (natoms b) <= 2147483647)%Z.
(** the line for an entry of the list of bonds *)
Definition bond_shown (b : BondModel.bphase) (pd : BondModel.pair_dist) (l : text) : Prop :=
  exists i j, (i < natoms b)%nat /\ (j < natoms b)%nat /\ BondModel.pd_i pd = (Z.of_nat i + 1)%Z /\ BondModel.pd_j pd = (Z.of_nat j + 1)%Z /\
  bond_line (ReportModel.upper (BondModel.bp_sym b i)) (BondModel.pd_i pd) (ReportModel.upper (BondModel.bp_sym b j)) (BondModel.pd_j pd) (BondModel.pd_dij pd) (Some (BondModel.pd_ddij pd)) l.
(** the first line *)
Definition header_says (q1 q2 : text) (lo hi : R) (l : text) : Prop :=
  exists w1 w2, real_word (Some lo) w1 /\ real_word (Some hi) w2 /\
  l = chars "(" ++ q1 ++ chars "," ++ q2 ++ chars ") bond lengths in [" ++ w1 ++ chars "A," ++ w2 ++ chars "A] for current phase :".
(** the different symbols in order of first occurrence *)
Inductive kinds : list text -> list text -> Prop :=
| kinds_nil : kinds [] []
| kinds_old l ts s : kinds l ts -> In s ts -> kinds (l ++ [s]) ts
| kinds_new l ts s : kinds l ts -> ~ In s ts -> kinds (l ++ [s]) (ts ++ [s]).
