(** Model of printing and reading numbers through C++ streams, as used by save_struct
    and the structure reader (stru.cc) and by FormatValueWithStd (StringUtils.cc).
    A double is a sign and a magnitude, so that -0 differs from 0; magnitudes are
    reals. *)
From Coq Require Import Ascii String List Arith ZArith Reals Bool.
From Verif Require Import Base SphereModel ParserModel DataModel.
Import ListNotations.
Local Open Scope R_scope.

Record dbl : Type := mkDbl { d_neg : bool; d_mag : R }.
Definition d_val (d : dbl) : R := if d_neg d then - d_mag d else d_mag d.
Definition d_zero : dbl := mkDbl false 0.
Definition d_one : dbl := mkDbl false 1.

(** the digits printf keeps are those of the nearest decimal, ties to even *)
Definition round_even (x : R) : Z :=
  let f := zfloor x in
  if Rlt_dec (x - IZR f) (1 / 2) then f
  else if Rlt_dec (1 / 2) (x - IZR f) then (f + 1)%Z
  else if Z.even f then f else (f + 1)%Z.

(** decimal digits of a number that is not negative *)
Definition dec_text (n : Z) : text := dec_digits (S (Z.to_nat (Z.log2 n))) n [].
(** the last p decimal digits *)
Fixpoint low_digits (p : nat) (n : Z) : text :=
  match p with
  | O => []
  | S q => low_digits q (n / 10) ++ [digit_of (n mod 10)]
  end.
Definition sign_text (neg : bool) : text := if neg then ["-"%char] else [].

(** ostream << fixed << setprecision(p) << double, printf %.pf; stru.cc:488-582 *)
Definition fixed_mag (p : nat) (k : Z) : text :=
  dec_text (k / 10 ^ Z.of_nat p) ++ match p with O => [] | S _ => "."%char :: low_digits p (k mod 10 ^ Z.of_nat p) end.
Definition fixed_text (p : nat) (d : dbl) : text :=
  sign_text (d_neg d) ++ fixed_mag p (round_even (d_mag d * 10 ^ p)).
(** ostream << int; stru.cc:541-543 *)
Definition int_text (z : Z) : text := sign_text (z <? 0)%Z ++ dec_text (Z.abs z).
(** setw(n), right or left adjusted; stru.cc:493-582 *)
Definition blank_text (n : nat) : text := repeat " "%char n.
Definition pad_left (n : nat) (t : text) : text := blank_text (n - length t) ++ t.
Definition pad_right (n : nat) (t : text) : text := t ++ blank_text (n - length t).

(** istream >> double with the sign kept, see scan_double; stru.cc:54, Atom.cc:54, 75 *)
Definition scan_dbl (l : text) : option (dbl * text) :=
  let (neg, l) := sign_split (skipws l) in
  match scan_float l with
  | Some (m, e, r) => Some (mkDbl neg (dec_val m e), r)
  | None => None
  end.

(** ** general format *)
(** printf %.Pg: digits k (P of them) and exponent of the first digit *)
Definition lead (P : nat) (x : R) : Z * Z :=
  let X := zfloor (ln x / ln 10) in
  let k := round_even (x * powerRZ 10 (Z.of_nat P - 1 - X)) in
  if (k =? 10 ^ Z.of_nat P)%Z then ((10 ^ (Z.of_nat P - 1))%Z, (X + 1)%Z) else (k, X).
(** trailing zeros of a fraction are dropped, and the point with an empty one *)
Fixpoint drop_zeros (l : text) : text :=
  match l with
  | [] => []
  | c :: r => match drop_zeros r with [] => if Ascii.eqb c "0" then [] else [c] | r' => c :: r' end
  end.
Definition point_text (f : text) : text := match drop_zeros f with [] => [] | f' => "."%char :: f' end.
(** exponent: sign and at least two digits *)
Definition exp_mark (X : Z) : text :=
  "e"%char :: (if (X <? 0)%Z then "-"%char else "+"%char) :: (if (Z.abs X <? 10)%Z then "0"%char :: dec_text (Z.abs X) else dec_text (Z.abs X)).
Definition general_mag (P : nat) (x : R) : text :=
  if Req_EM_T x 0 then ["0"%char]
  else
    let (k, X) := lead P x in
    if ((-4 <=? X) && (X <? Z.of_nat P))%Z then
      let p := Z.to_nat (Z.of_nat P - 1 - X) in
      dec_text (k / 10 ^ Z.of_nat p) ++ point_text (low_digits p (k mod 10 ^ Z.of_nat p))
    else
      let p := (P - 1)%nat in
      dec_text (k / 10 ^ Z.of_nat p) ++ point_text (low_digits p (k mod 10 ^ Z.of_nat p)) ++ exp_mark X.
(** ostream << double with precision P and no float format; None is NaN;
    StringUtils.cc:42-46 *)
Definition general_text (P : nat) (d : option dbl) : text :=
  match d with
  | Some d => sign_text (d_neg d) ++ general_mag P (d_mag d)
  | None => chars "nan"
  end.

(** models StringUtils.h:27-32, the settings of a FormatValueWithStd *)
Record fmt : Type := mkFmt { f_width : Z; f_left : bool; f_leading_blank : bool; f_std_precision : nat }.
(** models StringUtils.cc:38-56 FormatValueWithStd::operator() *)
Definition value_std (f : fmt) (x dx : option dbl) : text :=
  let lead := if f_leading_blank f then [" "%char] else [] in
  let larger := match x, dx with
                | Some x, Some dx => if Rlt_dec (Rabs (d_val x) * (1 / 100000000)) (d_val dx) then true else false
                | _, _ => false
                end in
  let std := if larger : bool then chars " (" ++ general_text (f_std_precision f) dx ++ chars ")"
             else match dx with None => chars " (NaN)" | Some _ => [] end in
  let rv := lead ++ general_text 6 x ++ std in
  if (Z.of_nat (length rv) <? f_width f)%Z then
    let blanks := blank_text (Z.to_nat (f_width f - Z.of_nat (length rv))) in
    if f_left f then rv ++ blanks else blanks ++ rv
  else rv.
