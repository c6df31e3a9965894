(** Specification vocabulary for printed numbers. *)
From Coq Require Import Ascii String List Arith ZArith Reals Bool.
From Verif Require Import Base ParserModel DataModel DataSpec FmtModel.
Import ListNotations.
Local Open Scope R_scope.

(** magnitudes are not negative *)
Definition dbl_ok (d : dbl) : Prop := 0 <= d_mag d.
(** digits without a needless zero in front or at the end *)
Definition plain_int (d : list nat) : Prop := d = [0%nat] \/ exists k r, d = k :: r /\ k <> 0%nat.
Definition plain_frac (f : option (list nat)) : Prop := match f with None => True | Some f => f <> [] /\ last f 0%nat <> 0%nat end.
(** the sign of the number and nothing else *)
Definition sign_shown (d : dbl) (n : numeral) : Prop := nu_sign n = if d_neg d then Some true else None.
(** what follows does not continue the number *)
Definition stops (r : text) : Prop :=
  match r with [] => True | c :: _ => is_digit c = false /\ c <> "."%char /\ c <> "e"%char /\ c <> "E"%char end.

(** p decimals, correctly rounded *)
Definition shows_fixed (p : nat) (d : dbl) (n : numeral) : Prop :=
  numeral_ok n /\ sign_shown d n /\ plain_int (nu_int n) /\ nu_exp n = None /\
  match nu_frac n with None => p = 0%nat | Some f => p <> 0%nat /\ length f = p end /\
  Rabs (numeral_value n - d_val d) <= 1 / 2 * / 10 ^ p.

(** a number whose first digit stands for 10^X *)
Definition decade (x : R) (X : Z) : Prop := powerRZ 10 X <= Rabs x < powerRZ 10 (X + 1).
(** P significant digits, correctly rounded, no needless zeros; an exponent only for
    printed numbers below 0.0001 or of more than P digits *)
Definition shows_general (P : nat) (d : dbl) (n : numeral) : Prop :=
  numeral_ok n /\ sign_shown d n /\ plain_int (nu_int n) /\ plain_frac (nu_frac n) /\
  (d_mag d = 0 -> numeral_value n = 0 /\ nu_exp n = None) /\
  forall X, decade (d_val d) X ->
    Rabs (numeral_value n - d_val d) <= 1 / 2 * powerRZ 10 (X + 1 - Z.of_nat P) /\
    (exists k, numeral_value n = IZR k * powerRZ 10 (X + 1 - Z.of_nat P)) /\
    (nu_exp n = None <-> powerRZ 10 (-4) <= Rabs (numeral_value n) < 10 ^ P).

(** ** values with deviations *)
(** the deviation matters: it is larger than 1e-8 of the value *)
Definition matters (x : option dbl) (dx : dbl) : Prop :=
  exists v, x = Some v /\ Rabs (d_val v) / 100000000 < d_val dx.
(** the value, with six digits *)
Definition value_part (x : option dbl) (t : text) : Prop :=
  match x with None => t = chars "nan" | Some x => exists n, t = print_numeral n /\ shows_general 6 x n end.
(** the deviation with its own number of digits *)
Definition std_part (P : nat) (x dx : option dbl) (t : text) : Prop :=
  match dx with
  | None => t = chars " (NaN)"
  | Some dx => (matters x dx -> exists n, t = chars " (" ++ print_numeral n ++ chars ")" /\ shows_general P dx n) /\
               (~ matters x dx -> t = [])
  end.
Definition opt_ok (x : option dbl) : Prop := match x with None => True | Some d => dbl_ok d end.
(** a field: blanks up to the width on one side, an optional blank, the value and its
    deviation *)
Definition field_is (f : fmt) (x dx : option dbl) (t v s : text) : Prop :=
  exists b1 b2, t = b1 ++ (if f_leading_blank f then [" "%char] else []) ++ v ++ s ++ b2 /\
  Forall (fun c => c = " "%char) (b1 ++ b2) /\ (if f_left f then b1 = [] else b2 = []) /\
  Z.of_nat (length t) = Z.max (f_width f) (Z.of_nat (length ((if f_leading_blank f then [" "%char] else []) ++ v ++ s))) /\
  value_part x v /\ std_part (f_std_precision f) x dx s.
(** a new FormatValueWithStd *)
Definition fmt_new : fmt := mkFmt 0 false false 2.
