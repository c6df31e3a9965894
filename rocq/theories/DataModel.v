(** Model of reading observed data (pdf.cc:1372-1614) and of the lists handed to
    Python for plotting (pdffit.cc:240-330, misc.cc:876-1023).
    Doubles are reals; texts are lists of characters. *)
From Coq Require Import Ascii String List Arith ZArith Reals Bool.
From Verif Require Import Base ParserModel PdfModel.
Import ListNotations.
Local Open Scope R_scope.

(** ** input streams *)
(** what is left to read and eofbit; failbit is reported by each call *)
Record stream : Type := mkStr { st_rest : text; st_eof : bool }.
Definition newline : ascii := "010"%char.
(** std::getline(fdata, line): the line, the stream and whether it succeeded.  At
    the end of the file the sentry fails and the line is left alone. *)
Definition getline (s : stream) (line : text) : text * stream * bool :=
  if st_eof s then (line, s, false)
  else match split_at newline (st_rest s) with
       | Some (a, b) => (a, mkStr b false, true)
       | None => (st_rest s, mkStr [] true, match st_rest s with [] => false | _ => true end)
       end.

(** istream >> double: value m*10^e and the rest.  Values too large for a double
    are left out. *)
Definition dec_val (m e : Z) : R := IZR m * powerRZ 10 e.
Definition scan_double (l : text) : option (R * text) :=
  let (neg, l) := sign_split (skipws l) in
  match scan_float l with
  | Some (m, e, r) => Some (if neg : bool then - dec_val m e else dec_val m e, r)
  | None => None
  end.
(** istream >> string, applied until the text ends *)
Fixpoint words_from (w : text) (l : text) : list text :=
  match l with
  | [] => match w with [] => [] | _ => [rev w] end
  | c :: r => if is_space c then match w with [] => words_from [] r | _ => rev w :: words_from [] r end
              else words_from (c :: w) r
  end.
Definition words (l : text) : list text := words_from [] l.
Definition text_eqb (a b : text) : bool := if list_eq_dec ascii_dec a b then true else false.

(** models pdf.cc:1470, 1478 line[0] == '#'; line[0] of an empty line is '\0' *)
Definition hash_line (l : text) : bool := match l with c :: _ => Ascii.eqb c "#" | [] => false end.
(** models pdf.cc:1473-1480: the line is ### start data *)
Definition start_line (l : text) : bool :=
  hash_line l &&
  (let w := words l in
   forallb (fun c => Ascii.eqb c "#") (nth 0 w []) &&
   text_eqb (nth 1 w []) (chars "start") && text_eqb (nth 2 w []) (chars "data")).

(** models pdf.cc:1471-1485, the loop over the history *)
Fixpoint skip_history (fuel : nat) (s : stream) (line : text) : outcome (stream * text) :=
  match fuel with
  | O => NoFuel
  | S f =>
      if st_eof s then Ok (s, line)
      else if start_line line then Ok (s, line)
      else let '(line, s, _) := getline s line in skip_history f s line
  end.
(** models pdf.cc:1487, while (line[0] == '#') getline(fdata, line) *)
Fixpoint skip_comments (fuel : nat) (s : stream) (line : text) : outcome (stream * text) :=
  match fuel with
  | O => NoFuel
  | S f => if hash_line line then let '(line, s, _) := getline s line in skip_comments f s line else Ok (s, line)
  end.

(** models pdf.cc:1492-1498, the number of columns *)
Fixpoint columns (fuel : nat) (l : text) : nat :=
  match fuel with
  | O => 0%nat
  | S f => match scan_double l with Some (_, r) => S (columns f r) | None => 0%nat end
  end.
(** models pdf.cc:1513-1540, weight of a point from what follows r and G *)
Definition row_weight (ncol : nat) (l : text) (lwei : bool) : R * bool :=
  let use (o : option (R * text)) :=
    match o with
    | Some (v, _) => if Rlt_dec 0 v then (1 / (v * v), lwei) else (1, false)
    | None => (1, false)
    end in
  match ncol with
  | 3%nat => use (scan_double l)
  | 4%nat => match scan_double l with Some (_, r) => use (scan_double r) | None => (1, false) end
  | _ => (1, lwei)
  end.
(** models pdf.cc:1503-1549, the points (r, obs, wic) and lwei *)
Fixpoint read_rows (fuel ncol : nat) (s : stream) (line : text) (lwei : bool) : outcome (list (R * R * R) * bool) :=
  match fuel with
  | O => NoFuel
  | S f =>
      match scan_double line with
      | None => Ok ([], lwei)
      | Some (ri, l1) =>
          match scan_double l1 with
          | None => Ok ([], lwei)
          | Some (ob, l2) =>
              let (wic, lwei) := row_weight ncol l2 lwei in
              let '(line, s, ok) := getline s line in
              if ok : bool then omap (fun x => ((ri, ob, wic) :: fst x, snd x)) (read_rows f ncol s line lwei)
              else Ok ([(ri, ob, wic)], lwei)
          end
      end
  end.

(** models MathUtils.h:31 *)
Definition deltar_tol : R := 1 / 1000.
(** models pdf.cc:1374-1385 isRegular *)
Definition gaps_ok (dx : R) (r : list R) : bool :=
  forallb (fun p : R * R => if Rlt_dec deltar_tol (Rabs (snd p - fst p - dx)) then false else true) (combine r (tl r)).
Definition is_regular (r : list R) : bool :=
  match r with
  | [] | [_] => true
  | a :: _ => gaps_ok ((last r a - a) / (INR (length r) - 1)) r
  end.

(** what is left in the data set: rmin = rfmin, rmax = rfmax, deltar, bin, obs,
    wic, nfmin, nfmax *)
Record dset : Type := mkDset {
  dt_rmin : R; dt_rmax : R; dt_deltar : num; dt_bin : Z; dt_obs : list R; dt_wic : list num; dt_nfmin : Z; dt_nfmax : Z }.

(** models pdf.cc:1455-1580 read_data_stream *)
Definition read_data_stream (fuel : nat) (t : text) : outcome dset :=
  let '(line, s, _) := getline (mkStr t false) [] in
  obind (if text_eqb (firstn 7 line) (chars "History") then skip_history fuel s line else Ok (s, line)) (fun sl =>
  obind (skip_comments fuel (fst sl) (snd sl)) (fun sl =>
  let (s, line) := sl in
  let ncol := columns (length line) line in
  obind (read_rows fuel ncol s line (2 <? ncol)%nat) (fun rl =>
  let (rows, lwei) := rl in
  let r := map (fun x : R * R * R => fst (fst x)) rows in
  let obs := map (fun x : R * R * R => snd (fst x)) rows in
  let wic := map (fun x : R * R * R => if lwei : bool then Some (snd x) else Some 1) rows in
  if negb (is_regular r) then Err ErrData
  else match r with
  | a :: _ :: _ =>
      let b := last r a in
      let bin := Z.of_nat (length obs) in
      Ok (mkDset a b (Some ((b - a) / (IZR bin - 1))) bin obs wic 0 (bin - 1))
  | _ => Err ErrData
  end))).

(** models pdf.cc:1392-1453 read_data_arrays; the three lists have the same length
    (misc.cc:236-247) *)
Definition read_data_arrays (r gr : list R) (dgr : option (list R)) : outcome dset :=
  let wic := match dgr with
             | None => map (fun _ => Some 1) gr
             | Some l => map (fun v => match nsqrt v with Some q => ndiv (Some 1) (Some q) | None => None end) l
             end in
  match r with
  | [] => UB
  | a :: _ =>
      let b := last r a in
      let bin := Z.of_nat (length r) in
      if negb (is_regular r) then Err ErrData
      else Ok (mkDset a b (ndiv (Some (b - a)) (Some (IZR bin - 1))) bin gr wic 0 0)
  end.

(** ** lists for plotting *)
(** the current data set: nfmin, nfmax, rmin, rmax, deltar, obs, pdftot *)
Record view : Type := mkView { vw_nfmin : Z; vw_nfmax : Z; vw_rmin : R; vw_rmax : R; vw_deltar : R; vw_obs : list R; vw_tot : list num }.
(** PyList_New refuses a negative length; the list is then filled with f nfmin,
    ..., f nfmax *)
Definition py_list {A} (f : Z -> outcome A) (nfmin nfmax : Z) : outcome (list A) :=
  if (nfmax - nfmin + 1 <? 0)%Z then Err ErrPlain
  else ofold (fun acc i => obind (f i) (fun x => Ok (acc ++ [x]))) (zloop nfmin nfmax) [].
(** models misc.cc:876-923 getR *)
Definition get_r (v : view) : outcome (list R) :=
  let pts a b := py_list (fun i => Ok (IZR i * vw_deltar v + vw_rmin v)) a b in
  if (vw_nfmax v - vw_nfmin v + 1 =? 1)%Z then
    if Req_EM_T (vw_deltar v) 0 then UB
    else obind (to_int (ztrunc ((vw_rmax v - vw_rmin v) / vw_deltar v))) (fun n => pts 0%Z n)
  else pts (vw_nfmin v) (vw_nfmax v).
(** models pdffit.cc:245-254 getpdf_fit *)
Definition fit_array (v : view) : list num := match vw_tot v with [] => map (fun _ => Some 0) (vw_obs v) | t => t end.
(** models misc.cc:930-958 getpdf_fit *)
Definition getpdf_fit (v : view) : outcome (list num) := py_list (fun i => rdz (fit_array v) i) (vw_nfmin v) (vw_nfmax v).
(** models misc.cc:962-989 getpdf_obs *)
Definition getpdf_obs (v : view) : outcome (list num) := py_list (fun i => omap Some (rdz (vw_obs v) i)) (vw_nfmin v) (vw_nfmax v).
(** models misc.cc:993-1023 getpdf_diff *)
Definition getpdf_diff (v : view) : outcome (list num) :=
  py_list (fun i => obind (rdz (vw_obs v) i) (fun o => obind (rdz (fit_array v) i) (fun c => Ok (nsub (Some o) c)))) (vw_nfmin v) (vw_nfmax v).
