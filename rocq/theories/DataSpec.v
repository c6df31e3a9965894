(** Specification vocabulary for reading data and for the plotted lists. *)
From Coq Require Import Ascii String List Arith ZArith Reals Bool.
From Verif Require Import Base ParserModel PdfModel PdfSpec DataModel.
Import ListNotations.
Local Open Scope R_scope.

(** ** texts *)
(** the lines of a text, each with a newline, the last one only if fin *)
Fixpoint text_of (lines : list text) (fin : bool) : text :=
  match lines with
  | [] => []
  | [l] => if fin then l ++ [newline] else l
  | l :: r => l ++ newline :: text_of r fin
  end.
(** a unique way to write a text: no newline inside a line, and a last line
    without newline is not empty *)
Definition good_lines (lines : list text) (fin : bool) : Prop :=
  Forall (fun l => ~ In newline l) lines /\ (fin = false -> last lines ["x"%char] <> []) /\ (lines = [] -> fin = false).

(** a number as it may be printed *)
Record numeral : Type := mkNum {
  nu_sign : option bool;                       (* Some true is '-', Some false '+' *)
  nu_int : list nat; nu_frac : option (list nat);
  nu_exp : option (bool * option bool * list nat) }.   (* 'E' or 'e', sign, digits *)
Definition print_sign (s : option bool) : text := match s with None => [] | Some true => ["-"%char] | Some false => ["+"%char] end.
Definition print_digits (d : list nat) : text := map (fun k => ascii_of_nat (48 + k)) d.
Definition print_numeral (n : numeral) : text :=
  print_sign (nu_sign n) ++ print_digits (nu_int n) ++
  (match nu_frac n with None => [] | Some d => "."%char :: print_digits d end) ++
  (match nu_exp n with None => [] | Some (up, s, d) => (if up : bool then "E"%char else "e"%char) :: print_sign s ++ print_digits d end).
Definition numeral_ok (n : numeral) : Prop :=
  Forall (fun k => (k < 10)%nat) (nu_int n) /\
  Forall (fun k => (k < 10)%nat) (match nu_frac n with None => [] | Some d => d end) /\
  (nu_int n ++ match nu_frac n with None => [] | Some d => d end <> []) /\
  match nu_exp n with None => True | Some (_, _, d) => Forall (fun k => (k < 10)%nat) d /\ d <> [] end.
(** its value *)
Fixpoint whole (d : list nat) : R := match d with [] => 0 | k :: r => INR k * 10 ^ length r + whole r end.
Fixpoint fraction (d : list nat) : R := match d with [] => 0 | k :: r => (INR k + fraction r) / 10 end.
Fixpoint whole_z (d : list nat) : Z := match d with [] => 0 | k :: r => (Z.of_nat k * 10 ^ Z.of_nat (length r) + whole_z r)%Z end.
Definition sign_of (s : option bool) : Z := match s with Some true => (-1)%Z | _ => 1%Z end.
Definition numeral_value (n : numeral) : R :=
  IZR (sign_of (nu_sign n)) * (whole (nu_int n) + match nu_frac n with None => 0 | Some d => fraction d end) *
  match nu_exp n with None => 1 | Some (_, s, d) => powerRZ 10 (sign_of s * whole_z d) end.

(** a line of numbers: blanks before each, at least one except before the first,
    then an end that is empty or starts with a blank and has no number next *)
Definition blanks (b : text) : Prop := Forall (fun c => is_space c = true) b.
Definition starts_blank (l : text) : Prop := match l with [] => True | c :: _ => is_space c = true end.
Definition no_number (l : text) : Prop :=
  exists b r, l = b ++ r /\ blanks b /\
  match r with [] => True | c :: _ => is_space c = false /\ is_digit c = false /\ c <> "."%char /\ c <> "+"%char /\ c <> "-"%char end.
Definition print_row (row : list (text * numeral)) (trail : text) : text :=
  concat (map (fun x => fst x ++ print_numeral (snd x)) row) ++ trail.
Definition row_ok (row : list (text * numeral)) (trail : text) : Prop :=
  Forall (fun x => blanks (fst x) /\ numeral_ok (snd x)) row /\ Forall (fun x => fst x <> []) (tl row) /\
  no_number trail /\ (row = [] \/ starts_blank trail).
Definition row_values (row : list (text * numeral)) : list R := map (fun x => numeral_value (snd x)) row.
(** a line with fewer than two numbers at its beginning *)
Definition short_line (l : text) : Prop := exists row tr, row_ok row tr /\ (length row < 2)%nat /\ l = print_row row tr.
(** a comment line *)
Definition comment (l : text) : Prop := exists r, l = "#"%char :: r.

(** the weights: inverse squares of the uncertainties in the last of three or four
    columns, if they are all positive *)
Definition weights_are (ncol : nat) (vals : list (list R)) (w : list num) : Prop :=
  ((ncol = 3%nat \/ ncol = 4%nat) /\ Forall (fun v => 0 < nth (ncol - 1) v 0) vals /\
     w = map (fun v => Some (1 / (nth (ncol - 1) v 0 * nth (ncol - 1) v 0))) vals) \/
  (~ ((ncol = 3%nat \/ ncol = 4%nat) /\ Forall (fun v => 0 < nth (ncol - 1) v 0) vals) /\ w = map (fun _ => Some 1) vals).

(** equal spacing within 0.001 *)
Definition regular (r : list R) : Prop :=
  (2 <= length r)%nat -> forall i, (S i < length r)%nat ->
  Rabs (nth (S i) r 0 - nth i r 0 - (nth (length r - 1) r 0 - nth 0 r 0) / (INR (length r) - 1)) <= 1 / 1000.

(** the data set holds the columns r and g *)
Definition holds_data (r g : list R) (w : list num) (s : dset) : Prop :=
  dt_obs s = g /\ dt_wic s = w /\ dt_rmin s = nth 0 r 0 /\ dt_rmax s = nth (length r - 1) r 0 /\
  dt_bin s = Z.of_nat (length r) /\ dt_nfmin s = 0%Z /\ dt_nfmax s = (Z.of_nat (length r) - 1)%Z /\
  dt_deltar s = Some ((nth (length r - 1) r 0 - nth 0 r 0) / (INR (length r) - 1)).

(** a header: comments, or a history up to a line '### start data' and comments *)
Definition is_start (l : text) : Prop :=
  exists k b1 b2 rest, l = repeat "#"%char (S k) ++ b1 ++ chars "start" ++ b2 ++ chars "data" ++ rest /\
  blanks b1 /\ b1 <> [] /\ blanks b2 /\ b2 <> [] /\ starts_blank rest.
Definition header (h : list text) : Prop :=
  Forall comment h \/
  exists r mid st com, h = (chars "History" ++ r) :: mid ++ st :: com /\
  Forall (fun l => ~ is_start l) mid /\ is_start st /\ Forall comment com.

(** a table: lines of ncol numbers, then nothing or a line with fewer than two *)
Definition is_table (ncol : nat) (rows : list (list (text * numeral) * text)) (rest : list text) : Prop :=
  (2 <= ncol)%nat /\ rows <> [] /\ Forall (fun x => row_ok (fst x) (snd x) /\ length (fst x) = ncol) rows /\
  match rest with [] => True | l :: _ => short_line l end.
Definition table_lines (rows : list (list (text * numeral) * text)) : list text := map (fun x => print_row (fst x) (snd x)) rows.
Definition column (k : nat) (rows : list (list (text * numeral) * text)) : list R := map (fun x => nth k (row_values (fst x)) 0) rows.

(** the lines at which the skipping of comments begins: after a history the line
    '### start data', or the last line when there is none *)
Definition begins_at (lines tail : list text) : Prop :=
  exists pre l r, lines = pre ++ tail /\ Forall (fun x => ~ is_start x) pre /\ tail = l :: r /\ (is_start l \/ r = []).
Definition history (lines : list text) : Prop := exists r ls, lines = (chars "History" ++ r) :: ls.
(** every line left is a comment, and the last one has no newline *)
Definition stuck (lines : list text) (fin : bool) : Prop :=
  fin = false /\ lines <> [] /\
  ((history lines /\ exists tail, begins_at lines tail /\ Forall comment tail) \/ (~ history lines /\ Forall comment lines)).

(** ** plotted lists *)
(** the limits lie in the arrays *)
Definition in_arrays (v : view) : Prop :=
  (0 <= vw_nfmin v <= vw_nfmax v)%Z /\ (vw_nfmax v < Z.of_nat (length (vw_obs v)))%Z /\
  (vw_tot v = [] \/ (vw_nfmax v < Z.of_nat (length (vw_tot v)))%Z).
(** the four lists have one entry per point from nfmin to nfmax: r, the observed
    and the fitted value, and their difference; the fitted values are zero before
    a calculation *)
Definition lists_agree (v : view) : Prop :=
  exists r f o d, get_r v = Ok r /\ getpdf_fit v = Ok f /\ getpdf_obs v = Ok o /\ getpdf_diff v = Ok d /\
  Z.of_nat (length r) = (vw_nfmax v - vw_nfmin v + 1)%Z /\ length f = length r /\ length o = length r /\ length d = length r /\
  forall k, (k < length r)%nat ->
    nth k r 0 = vw_rmin v + IZR (vw_nfmin v + Z.of_nat k) * vw_deltar v /\
    nth k o None = Some (nth (Z.to_nat (vw_nfmin v) + k) (vw_obs v) 0) /\
    (vw_tot v = [] -> nth k f None = Some 0) /\
    (vw_tot v <> [] -> nth k f None = nth (Z.to_nat (vw_nfmin v) + k) (vw_tot v) None) /\
    (forall x, nth k f None = Some x -> nth k d None = Some (nth (Z.to_nat (vw_nfmin v) + k) (vw_obs v) 0 - x)) /\
    (nth k f None = None -> nth k d None = None).
(** the data set after reading, before any calculation *)
Definition fresh_view (s : dset) (dr : R) : view := mkView (dt_nfmin s) (dt_nfmax s) (dt_rmin s) (dt_rmax s) dr (dt_obs s) [].

(** ** arrays *)
Definition same_length {A B} (a : list A) (b : list B) : Prop := length a = length b.
(** the weights given to arrays: the inverse of the square root of the uncertainty *)
Definition array_weights (gr : list R) (dgr : option (list R)) : list num :=
  match dgr with None => map (fun _ => Some 1) gr | Some l => map (fun v => if Rlt_dec 0 v then Some (1 / sqrt v) else None) l end.
