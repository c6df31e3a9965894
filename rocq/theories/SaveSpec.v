(** Specification vocabulary for saved data texts. *)
From Coq Require Import Ascii String List Arith ZArith Reals Bool.
From Verif Require Import Base ParserModel PdfModel DataModel DataSpec FmtModel FmtSpec SaveModel.
Import ListNotations.
Local Open Scope R_scope.

(** the number x *)
Definition is_num (x : xdbl) (v : R) : Prop := exists d, x = Fin d /\ dbl_ok d /\ d_val d = v.
(** the numeral is x rounded to six significant digits *)
Definition six_digits (x : R) (n : numeral) : Prop :=
  numeral_ok n /\ nu_frac n <> None /\ (x = 0 -> numeral_value n = 0) /\
  forall X, decade x X ->
    Rabs (numeral_value n - x) <= 1 / 2 * powerRZ 10 (X - 5) /\
    exists k, numeral_value n = IZR k * powerRZ 10 (X - 5).
(** the range lies in the observed and the calculated values *)
Definition calculated (s : sdata) : Prop :=
  (0 <= sd_nfmin s <= sd_nfmax s)%Z /\ (sd_nfmax s < Z.of_nat (length (sd_obs s)))%Z /\
  (sd_nfmax s < Z.of_nat (length (sd_wic s)))%Z /\ (sd_nfmax s < Z.of_nat (length (sd_tot s)))%Z.
(** point k of the range *)
Definition point (s : sdata) (k : nat) : nat := (Z.to_nat (sd_nfmin s) + k)%nat.
Definition points (s : sdata) : nat := Z.to_nat (sd_nfmax s - sd_nfmin s + 1).
Definition r_at (s : sdata) (k : nat) : R := sd_rmin s + INR (point s k) * sd_deltar s.
(** the arrays hold these numbers *)
Definition holds (l : list xdbl) (f : nat -> R) : Prop := forall i, (i < length l)%nat -> is_num (nth i l Nan) (f i).
(** a line of numerals with the given values, separated by blanks *)
Definition line_of (vals : list R) (row : list (text * numeral) * text) : Prop :=
  row_ok (fst row) (snd row) /\ snd row = [] /\ Forall (fun x => Forall (eq " "%char) (fst x)) (fst row) /\ Forall2 (fun x v => six_digits v (snd x)) (fst row) vals.
(** a text with one line per point *)
Definition table_of (n : nat) (vals : nat -> list R) (t : text) : Prop :=
  exists rows, t = text_of (table_lines rows) true /\ length rows = n /\ forall k, (k < n)%nat -> line_of (vals k) (nth k rows ([], [])).
(** a data set read from the text holds the grid and these values, without weights *)
Definition read_as (s : sdata) (g : nat -> R) (ds : dset) : Prop :=
  dt_bin ds = Z.of_nat (points s) /\ length (dt_obs ds) = points s /\
  (forall k, (k < points s)%nat -> Rabs (nth k (dt_obs ds) 0 - g (point s k)) <= 5 / 1000000 * Rabs (g (point s k))) /\
  dt_wic ds = repeat (Some 1) (points s) /\
  Rabs (dt_rmin ds - r_at s 0) <= 5 / 100000 /\ Rabs (dt_rmax ds - r_at s (points s - 1)) <= 5 / 100000.
(** s is data set number iset *)
Definition numbered (sets : list sdata) (iset : Z) (s : sdata) : Prop := (1 <= iset)%Z /\ nth_error sets (Z.to_nat (iset - 1)) = Some s.
(** the set just read from a text, nothing calculated *)
Definition fresh (ds : dset) (dr : R) : sdata :=
  mkSd (dt_nfmin ds) (dt_nfmax ds) (dt_rmin ds) dr (map (fun x => Fin (dbl_of x)) (dt_obs ds))
    (map (fun w => match w with Some x => Fin (dbl_of x) | None => Nan end) (dt_wic ds)) [].

(** ** values that need not be numbers *)
Definition proper (x : xdbl) : Prop := match x with Fin d => dbl_ok d | _ => True end.
(** how a value is written *)
Definition shows (x : xdbl) (w : text) : Prop :=
  match x with
  | Fin d => exists n, w = print_numeral n /\ six_digits (d_val d) n
  | Inf true => w = chars "-inf"
  | Inf false => w = chars "inf"
  | Nan => w = chars "nan"
  end.
(** d is a - b by the rules of IEEE 754 *)
Definition difference (a b d : xdbl) : Prop :=
  (forall x y, is_num a x -> is_num b y -> is_num d (x - y)) /\
  (a = Nan \/ b = Nan -> d = Nan) /\
  (forall s, a = Inf s -> b = Inf s -> d = Nan) /\
  (forall s, a = Inf s -> b <> Nan -> b <> Inf s -> d = Inf s) /\
  (forall s x, is_num a x -> b = Inf s -> d = Inf (negb s)).
(** y is the uncertainty that belongs to the weight w; sqrt keeps the sign of zero *)
Definition uncertainty (w y : xdbl) : Prop :=
  (forall v, is_num w v -> 0 < v -> is_num y (1 / sqrt v)) /\
  (forall v, is_num w v -> v < 0 -> y = Nan) /\
  (forall d, w = Fin d -> d_mag d = 0 -> y = Inf (d_neg d)) /\
  (w = Inf false -> is_num y 0) /\
  (w = Inf true \/ w = Nan -> y = Nan).
(** a line of these values, separated by blanks *)
Definition written (l : text) (xs : list xdbl) : Prop :=
  exists ws : list (text * text), l = concat (map (fun p => fst p ++ snd p) ws) /\
  Forall2 (fun p x => shows x (snd p)) ws xs /\
  Forall (fun p => Forall (eq " "%char) (fst p) /\ (12 <= length (fst p ++ snd p))%nat) ws /\ Forall (fun p => fst p <> []) (tl ws).
