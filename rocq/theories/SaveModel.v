(** Model of the texts written by save_pdf and save_dif (pdf.cc:962-1088).  Doubles
    are finite (sign and real magnitude, FmtModel.dbl), infinite or NaN. *)
From Coq Require Import Ascii String List Arith ZArith Reals Bool.
From Verif Require Import Base ParserModel PdfModel DataModel FmtModel.
Import ListNotations.
Local Open Scope R_scope.

Inductive xdbl : Type := Fin (d : dbl) | Inf (neg : bool) | Nan.
Definition dbl_of (x : R) : dbl := mkDbl (if Rlt_dec x 0 then true else false) (Rabs x).
(** a - b; equal numbers give +0 unless it is -0 - +0 *)
Definition x_sub (a b : xdbl) : xdbl :=
  match a, b with
  | Fin a, Fin b =>
      let v := d_val a - d_val b in
      Fin (if Req_EM_T v 0 then mkDbl (d_neg a && negb (d_neg b) && (if Req_EM_T (d_mag a) 0 then true else false)) 0 else dbl_of v)
  | Nan, _ | _, Nan => Nan
  | Inf s, Inf t => if Bool.eqb s t then Nan else Inf s
  | Inf s, Fin _ => Inf s
  | Fin _, Inf t => Inf (negb t)
  end.
(** 1.0/sqrt(w), pdf.cc:1022 *)
Definition x_rsqrt (w : xdbl) : xdbl :=
  match w with
  | Fin w => if Req_EM_T (d_mag w) 0 then Inf (d_neg w) else if d_neg w then Nan else Fin (dbl_of (1 / sqrt (d_mag w)))
  | Inf false => Fin d_zero
  | Inf true | Nan => Nan
  end.

(** printf %#.Pg, as general_mag but trailing zeros are kept; the stream of
    pdf.cc:1016, 1079 has showpoint set *)
Definition sharp_mag (P : nat) (x : R) : text :=
  if Req_EM_T x 0 then "0"%char :: "."%char :: repeat "0"%char (P - 1)
  else
    let (k, X) := lead P x in
    if ((-4 <=? X) && (X <? Z.of_nat P))%Z then
      let p := Z.to_nat (Z.of_nat P - 1 - X) in
      dec_text (k / 10 ^ Z.of_nat p) ++ "."%char :: low_digits p (k mod 10 ^ Z.of_nat p)
    else
      let p := (P - 1)%nat in
      dec_text (k / 10 ^ Z.of_nat p) ++ ("."%char :: low_digits p (k mod 10 ^ Z.of_nat p)) ++ exp_mark X.
(** ostream << double with showpoint; the sign of NaN is left out *)
Definition sharp_text (P : nat) (x : xdbl) : text :=
  match x with
  | Fin d => sign_text (d_neg d) ++ sharp_mag P (d_mag d)
  | Inf s => sign_text s ++ chars "inf"
  | Nan => chars "nan"
  end.
(** setw(12) << x with the default precision *)
Definition save_field (x : xdbl) : text := pad_left 12 (sharp_text 6 x).

(** what the two functions use of a data set *)
Record sdata : Type := mkSd { sd_nfmin : Z; sd_nfmax : Z; sd_rmin : R; sd_deltar : R; sd_obs : list xdbl; sd_wic : list xdbl; sd_tot : list xdbl }.
(** models pdf.cc:1020, 1083 *)
Definition sd_r (s : sdata) (i : Z) : xdbl := Fin (dbl_of (IZR i * sd_deltar s + sd_rmin s)).
(** models pdf.cc:1020-1023; the vectors are read without a bounds check *)
Definition pdf_line (s : sdata) (i : Z) : outcome text :=
  let blank := blank_text 4 in
  obind (rdz (sd_tot s) i) (fun c => obind (rdz (sd_wic s) i) (fun w => obind (rdz (sd_obs s) i) (fun o =>
  Ok (save_field (sd_r s i) ++ blank ++ save_field c ++ blank ++ save_field (Fin d_zero) ++ blank ++
      save_field (x_rsqrt w) ++ blank ++ save_field (x_sub o c) ++ [newline])))).
(** models pdf.cc:1083-1084 *)
Definition dif_line (s : sdata) (i : Z) : outcome text :=
  obind (rdz (sd_tot s) i) (fun c => obind (rdz (sd_obs s) i) (fun o =>
  Ok (save_field (sd_r s i) ++ blank_text 4 ++ save_field (x_sub o c) ++ [newline]))).
(** models pdf.cc:1018-1026 and 1081-1087, the loops *)
Definition build_file (line : Z -> outcome text) (s : sdata) : outcome text :=
  ofold (fun acc i => obind (line i) (fun l => Ok (acc ++ l))) (zloop (sd_nfmin s) (sd_nfmax s)) [].
(** models pdf.cc:1012-1027 DataSet::build_pdf_file *)
Definition build_pdf_file (s : sdata) : outcome text := build_file (pdf_line s) s.
(** models pdf.cc:1075-1088 DataSet::build_dif_file *)
Definition build_dif_file (s : sdata) : outcome text := build_file (dif_line s) s.
(** models pdf.cc:969-1004 PdfFit::save_pdf with an empty file name *)
Definition save_pdf (sets : list sdata) (iset : Z) : outcome text :=
  if ((iset <? 1) || (Z.of_nat (length sets) <? iset))%Z then Err ErrUnassigned
  else obind (rdz sets (iset - 1)) build_pdf_file.
(** models pdf.cc:1037-1068 PdfFit::save_dif with an empty file name *)
Definition save_dif (sets : list sdata) (iset : Z) : outcome text :=
  if ((iset <? 1) || (Z.of_nat (length sets) <? iset))%Z then Err ErrUnassigned
  else obind (rdz sets (iset - 1)) build_dif_file.
(** models pdffit.cc:245-254 getpdf_fit, which fills an empty pdftot with zeros *)
Definition touch (s : sdata) : sdata :=
  match sd_tot s with
  | [] => mkSd (sd_nfmin s) (sd_nfmax s) (sd_rmin s) (sd_deltar s) (sd_obs s) (sd_wic s) (map (fun _ => Fin d_zero) (sd_obs s))
  | _ => s
  end.
