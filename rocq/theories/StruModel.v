(** Model of reading and saving structures: stru.cc:49-120, 187-420, 479-585 and
    Atom.cc:49-100.  Doubles are a sign and a real magnitude; infinities and NaN are
    left out.  The messages printed on the way are left out. *)
From Coq Require Import Ascii String List Arith ZArith Reals Bool.
From Verif Require Import Base MathModel MetricModel PdfModel ParserModel DataModel ElementTable ScatModel FmtModel.
Import ListNotations.
Local Open Scope R_scope.

(** models Atom.h:46-50; the atom type by its symbol *)
Record satom : Type := mkSat {
  sa_sym : text; sa_pos : list dbl; sa_occ : dbl; sa_dpos : list dbl; sa_docc : dbl; sa_u : list dbl; sa_du : list dbl }.
(** models pdffit.h:482-533, the fields of a Phase that the structure reader sets;
    sp_dev holds dpscale, ddelta2, ddelta1, dsratio and dspdiameter, natoms is the
    length of sp_atoms *)
Record sphase : Type := mkSp {
  sp_name : text; sp_spcgr : text; sp_pscale : dbl;
  sp_delta2 : dbl; sp_delta1 : dbl; sp_sratio : dbl; sp_rcut : dbl;
  sp_spdiam : dbl; sp_stepcut : dbl;
  sp_a0 : list dbl; sp_win : list dbl; sp_da0 : list dbl; sp_dwin : list dbl;
  sp_icc : list Z; sp_ncatoms : Z; sp_dev : list dbl; sp_atoms : list satom }.
Definition z3 : list dbl := [d_zero; d_zero; d_zero].
(** models pdffit.h:534-549 Phase() *)
Definition phase0 : sphase :=
  mkSp (chars "UNNAMED") (chars "P1") d_one d_zero d_zero d_one d_zero d_zero d_zero
       z3 z3 z3 z3 [0; 0; 0]%Z 0 [d_zero; d_zero; d_zero; d_zero; d_zero] [].

(** ** line by line *)
(** istream >> string: the word and what follows it *)
Fixpoint span_word (l : text) : text * text :=
  match l with
  | [] => ([], [])
  | c :: r => if is_space c then ([], l) else let (w, q) := span_word r in (c :: w, q)
  end.
Definition get_word (l : text) : option (text * text) :=
  match span_word (skipws l) with ([], _) => None | wr => Some wr end.
(** models stru.cc:69-76, the delimiter after a value *)
Definition after_delim (l : text) : text :=
  match skipws l with [] => [] | c :: r => if Ascii.eqb c "," then r else c :: r end.
(** models stru.cc:48-78, 88-91 vget and dget; None for the vgetException *)
Definition dget (l : text) : option (dbl * text) :=
  match scan_dbl l with Some (d, r) => Some (d, after_delim r) | None => None end.
(** models stru.cc:94-97 iget *)
Definition iget (l : text) : option (Z * text) :=
  match scan_int l with Some (d, r) => Some (d, after_delim r) | None => None end.
Fixpoint dgets (n : nat) (l : text) : option (list dbl * text) :=
  match n with
  | O => Some ([], l)
  | S k => match dget l with
           | None => None
           | Some (d, r) => match dgets k r with None => None | Some (ds, q) => Some (d :: ds, q) end
           end
  end.
Fixpoint igets (n : nat) (l : text) : option (list Z * text) :=
  match n with
  | O => Some ([], l)
  | S k => match iget l with
           | None => None
           | Some (d, r) => match igets k r with None => None | Some (ds, q) => Some (d :: ds, q) end
           end
  end.
(** models stru.cc:101-107 lstrip *)
Fixpoint lstrip (l : text) : text :=
  match l with
  | [] => []
  | c :: r => if Ascii.eqb c " " || Ascii.eqb c "009" then lstrip r else l
  end.
(** models stru.cc:110-119 substitute(s, ",", " ") *)
Definition commas_out (l : text) : text := map (fun c => if Ascii.eqb c "," then " "%char else c) l.

(** what read_header keeps from line to line: befehl, ldiscus and the phase *)
Record hstate : Type := mkHs { h_cmd : text; h_discus : bool; h_ph : sphase }.

Definition set_name (p : sphase) x := mkSp x (sp_spcgr p) (sp_pscale p) (sp_delta2 p) (sp_delta1 p) (sp_sratio p) (sp_rcut p) (sp_spdiam p) (sp_stepcut p) (sp_a0 p) (sp_win p) (sp_da0 p) (sp_dwin p) (sp_icc p) (sp_ncatoms p) (sp_dev p) (sp_atoms p).
Definition set_spcgr (p : sphase) x := mkSp (sp_name p) x (sp_pscale p) (sp_delta2 p) (sp_delta1 p) (sp_sratio p) (sp_rcut p) (sp_spdiam p) (sp_stepcut p) (sp_a0 p) (sp_win p) (sp_da0 p) (sp_dwin p) (sp_icc p) (sp_ncatoms p) (sp_dev p) (sp_atoms p).
Definition set_scale (p : sphase) x := mkSp (sp_name p) (sp_spcgr p) x (sp_delta2 p) (sp_delta1 p) (sp_sratio p) (sp_rcut p) (sp_spdiam p) (sp_stepcut p) (sp_a0 p) (sp_win p) (sp_da0 p) (sp_dwin p) (sp_icc p) (sp_ncatoms p) (upd_nth (sp_dev p) 0 d_zero) (sp_atoms p).
Definition set_sharp (p : sphase) d2 d1 sr rc := mkSp (sp_name p) (sp_spcgr p) (sp_pscale p) d2 d1 sr rc (sp_spdiam p) (sp_stepcut p) (sp_a0 p) (sp_win p) (sp_da0 p) (sp_dwin p) (sp_icc p) (sp_ncatoms p) (upd_nth (upd_nth (upd_nth (sp_dev p) 1 d_zero) 3 d_zero) 2 d_zero) (sp_atoms p).
Definition set_sphere (p : sphase) x := mkSp (sp_name p) (sp_spcgr p) (sp_pscale p) (sp_delta2 p) (sp_delta1 p) (sp_sratio p) (sp_rcut p) x (sp_stepcut p) (sp_a0 p) (sp_win p) (sp_da0 p) (sp_dwin p) (sp_icc p) (sp_ncatoms p) (sp_dev p) (sp_atoms p).
Definition set_stepcut (p : sphase) x := mkSp (sp_name p) (sp_spcgr p) (sp_pscale p) (sp_delta2 p) (sp_delta1 p) (sp_sratio p) (sp_rcut p) (sp_spdiam p) x (sp_a0 p) (sp_win p) (sp_da0 p) (sp_dwin p) (sp_icc p) (sp_ncatoms p) (sp_dev p) (sp_atoms p).
Definition set_cell (p : sphase) a w := mkSp (sp_name p) (sp_spcgr p) (sp_pscale p) (sp_delta2 p) (sp_delta1 p) (sp_sratio p) (sp_rcut p) (sp_spdiam p) (sp_stepcut p) a w (sp_da0 p) (sp_dwin p) (sp_icc p) (sp_ncatoms p) (sp_dev p) (sp_atoms p).
Definition set_dcell (p : sphase) a w := mkSp (sp_name p) (sp_spcgr p) (sp_pscale p) (sp_delta2 p) (sp_delta1 p) (sp_sratio p) (sp_rcut p) (sp_spdiam p) (sp_stepcut p) (sp_a0 p) (sp_win p) a w (sp_icc p) (sp_ncatoms p) (sp_dev p) (sp_atoms p).
Definition set_ncell (p : sphase) i n := mkSp (sp_name p) (sp_spcgr p) (sp_pscale p) (sp_delta2 p) (sp_delta1 p) (sp_sratio p) (sp_rcut p) (sp_spdiam p) (sp_stepcut p) (sp_a0 p) (sp_win p) (sp_da0 p) (sp_dwin p) i n (sp_dev p) (sp_atoms p).
Definition set_atoms (p : sphase) x := mkSp (sp_name p) (sp_spcgr p) (sp_pscale p) (sp_delta2 p) (sp_delta1 p) (sp_sratio p) (sp_rcut p) (sp_spdiam p) (sp_stepcut p) (sp_a0 p) (sp_win p) (sp_da0 p) (sp_dwin p) (sp_icc p) (sp_ncatoms p) (sp_dev p) x.

Definition on_vals {A : Type} (o : option A) (f : A -> sphase) : outcome sphase :=
  match o with Some x => Ok (f x) | None => Err ErrStructure end.
(** std::getline(sline, s): the rest of the line, or s when nothing is left *)
Definition rest_of_line (rest : option text) (old : text) : text :=
  match rest with Some (c :: r) => c :: r | _ => old end.
(** the rest of the line for the other readers *)
Definition rest_text (rest : option text) : text := match rest with Some r => r | None => [] end.

(** models stru.cc:283-309, the sharpening parameters *)
Definition read_sharp (p : sphase) (l : text) : outcome sphase :=
  match dgets 3 l with
  | Some ([v0; v1; v2], r) =>
      match dget r with
      | Some (v3, _) => Ok (set_sharp p v0 v1 v2 v3)
      | None => Ok (set_sharp p v0 d_zero v1 v2)
      end
  | _ => Err ErrStructure
  end.
(** models stru.cc:319-343, the shape corrections *)
Definition read_shape (p : sphase) (rest : option text) : outcome sphase :=
  match get_word (commas_out (rest_of_line rest [])) with
  | None => Err ErrStructure
  | Some (w, r) =>
      if text_eqb w (chars "sphere") then on_vals (dget r) (fun x => set_sphere p (fst x))
      else if text_eqb w (chars "stepcut") then on_vals (dget r) (fun x => set_stepcut p (fst x))
      else Err ErrStructure
  end.
(** models stru.cc:265-395: the keyword and what is left of the line; None for the
    rest when no word could be read, the stream has failed then *)
Definition run_keyword (cmd : text) (rest : option text) (s : hstate) : outcome hstate :=
  let p := h_ph s in
  let set (o : outcome sphase) := omap (fun p => mkHs cmd (h_discus s) p) o in
  let l := rest_text rest in
  if text_eqb cmd (chars "format") then
    Ok (mkHs cmd (match get_word l with Some (w, _) => negb (text_eqb w (chars "pdffit")) | None => true end) p)
  else if text_eqb cmd (chars "scale") then set (on_vals (dget l) (fun x => set_scale p (fst x)))
  else if text_eqb cmd (chars "sharp") then set (read_sharp p l)
  else if text_eqb cmd (chars "spcgr") then
    set (Ok (match get_word l with Some (w, _) => set_spcgr p w | None => p end))
  else if text_eqb cmd (chars "shape") then set (read_shape p rest)
  else if text_eqb cmd (chars "title") then set (Ok (set_name p (lstrip (rest_of_line rest (sp_name p)))))
  else if text_eqb cmd (chars "cell") then
    set (on_vals (dgets 6 l) (fun x => set_cell p (firstn 3 (fst x)) (skipn 3 (fst x))))
  else if text_eqb cmd (chars "dcell") then
    set (on_vals (dgets 6 l) (fun x => set_dcell p (firstn 3 (fst x)) (skipn 3 (fst x))))
  else if text_eqb cmd (chars "ncell") then
    set (on_vals (igets 4 l) (fun x => set_ncell p (firstn 3 (fst x)) (nth 3 (fst x) 0%Z)))
  else Ok (mkHs cmd (h_discus s) p).
(** models stru.cc:248-265, one line of the header; None at the line "atoms".  A line
    without a word leaves befehl as it was. *)
Definition header_line (s : hstate) (line : text) : outcome (option hstate) :=
  let w := get_word line in
  let cmd := match w with Some (w, _) => w | None => h_cmd s end in
  if text_eqb cmd (chars "atoms") then Ok None
  else if hash_line cmd then Ok (Some (mkHs cmd (h_discus s) (h_ph s)))
  else omap Some (run_keyword cmd (match w with Some (_, r) => Some r | None => None end) s).
(** models stru.cc:237-397 read_header; the state and the stream *)
Fixpoint read_header (fuel : nat) (s : stream) (line : text) (h : hstate) : outcome (hstate * stream) :=
  match fuel with
  | O => NoFuel
  | S f =>
      let '(line, s, ok) := getline s line in
      if negb ok then Ok (h, s)
      else obind (header_line h line) (fun o =>
           match o with None => Ok (h, s) | Some h => read_header f s line h end)
  end.

(** ** atoms *)
(** istream >> double, n times *)
Fixpoint scan_dbls (n : nat) (l : text) : option (list dbl * text) :=
  match n with
  | O => Some ([], l)
  | S k => match scan_dbl l with
           | None => None
           | Some (d, r) => match scan_dbls k r with None => None | Some (ds, q) => Some (d :: ds, q) end
           end
  end.
(** models Atom.cc:54 fac*B *)
Definition b_to_u (b : dbl) : dbl := mkDbl (d_neg b) (1 / (8 * PI * PI) * d_mag b).
(** models Atom.cc:49-68 read_discus_atom and stru.cc:412-417 *)
Definition discus_atom (sym : text) (v : list dbl) : satom :=
  let u := b_to_u (nth 3 v d_zero) in
  mkSat sym (firstn 3 v) d_one z3 d_zero (u :: u :: u :: z3) (z3 ++ z3).
(** models Atom.cc:71-86 read_pdffit_atom *)
Definition pdffit_atom (sym : text) (v : list dbl) : satom :=
  mkSat sym (firstn 3 v) (nth 3 v d_zero) (firstn 3 (skipn 4 v)) (nth 7 v d_zero)
        (firstn 3 (skipn 8 v) ++ firstn 3 (skipn 14 v)) (firstn 3 (skipn 11 v) ++ firstn 3 (skipn 17 v)).
(** models Atom.cc:92-100 operator>>; None when the stream fails *)
Definition read_atom (discus : bool) (l : text) : option (text * list dbl * text) :=
  match get_word l with
  | None => None
  | Some (w, r) => match scan_dbls (if discus then 4 else 20) r with
                   | None => None
                   | Some (v, q) => Some (w, v, q)
                   end
  end.
(** models stru.cc:399-410 read_atoms; lookup throws ValueError *)
Fixpoint read_atoms (fuel : nat) (discus : bool) (l : text) : outcome (list satom) :=
  match fuel with
  | O => NoFuel
  | S f =>
      match read_atom discus l with
      | None => Ok []
      | Some (w, v, q) =>
          match pt_lookup elements w with
          | None => Err ErrValue
          | Some e => omap (cons ((if discus then discus_atom else pdffit_atom) (esym e) v)) (read_atoms f discus q)
          end
      end
  end.

(** int multiplication *)
Definition imul (a b : Z) : outcome Z := to_int (a * b).
Definition v3_of (l : list dbl) : v3 := fun i => d_val (nth i l d_zero).
(** models stru.cc:187-226 read_struct_stream on a new phase; the lattice that
    lattice() computes is left out, see MetricModel *)
Definition read_struct (t : text) : outcome sphase :=
  obind (read_header (S (S (length t))) (mkStr t false) [] (mkHs [] true phase0)) (fun hs =>
  let (h, s) := hs : hstate * stream in
  obind (read_atoms (S (length t)) (h_discus h) (if st_eof s then [] else st_rest s)) (fun ats =>
  let p := set_atoms (h_ph h) ats in
  obind (lattice (v3_of (sp_a0 p)) (v3_of (sp_win p))) (fun _ =>
  obind (imul (nth 0 (sp_icc p) 0%Z) (nth 1 (sp_icc p) 0%Z)) (fun k =>
  obind (imul k (nth 2 (sp_icc p) 0%Z)) (fun k =>
  obind (imul k (sp_ncatoms p)) (fun k =>
  if (k =? Z.of_nat (length ats))%Z then Ok p else Err ErrStructure)))))).

(** ** saving *)
(** setw(9) << x with six decimals *)
Definition num9 (d : dbl) : text := pad_left 9 (fixed_text 6 d).
Definition sep_by (s : text) (l : list text) : text :=
  match l with [] => [] | x :: r => x ++ concat (map (fun y => s ++ y) r) end.
Definition comma : text := chars ", ".
(** setw(17) with eight decimals, after a blank *)
Definition num17 (d : dbl) : text := " "%char :: pad_left 17 (fixed_text 8 d).
Definition num12 (d : dbl) : text := " "%char :: pad_left 12 (fixed_text 4 d).
Definition nums17 (l : list dbl) : text := concat (map num17 l).
Definition endl : text := [newline].
(** models stru.cc:559-582, one atom *)
Definition save_atom (a : satom) : text :=
  pad_right 4 (sa_sym a) ++ nums17 (sa_pos a) ++ num12 (sa_occ a) ++ endl ++
  chars "    " ++ nums17 (sa_dpos a) ++ num12 (sa_docc a) ++ endl ++
  chars "    " ++ nums17 (firstn 3 (sa_u a)) ++ endl ++
  chars "    " ++ nums17 (firstn 3 (sa_du a)) ++ endl ++
  chars "    " ++ nums17 (skipn 3 (sa_u a)) ++ endl ++
  chars "    " ++ nums17 (skipn 3 (sa_du a)) ++ endl.
(** models stru.cc:500-508, a shape correction that is set *)
Definition save_shape (kind : text) (d : dbl) : list text :=
  if Rlt_dec 0 (d_val d) then [chars "shape   " ++ kind ++ comma ++ fixed_text 6 d] else [].
(** models stru.cc:486-545, the lines of the header *)
Definition save_header (p : sphase) : list text :=
  [chars "title  " ++ sp_name p;
   chars "format pdffit";
   chars "scale  " ++ num9 (sp_pscale p);
   chars "sharp  " ++ sep_by comma (map num9 [sp_delta2 p; sp_delta1 p; sp_sratio p; sp_rcut p]);
   chars "spcgr   " ++ sp_spcgr p] ++
  save_shape (chars "sphere") (sp_spdiam p) ++
  save_shape (chars "stepcut") (sp_stepcut p) ++
  [chars "cell   " ++ sep_by comma (map num9 (sp_a0 p ++ sp_win p));
   chars "dcell  " ++ sep_by comma (map num9 (sp_da0 p ++ sp_dwin p));
   chars "ncell  " ++ sep_by comma (map (fun z => pad_left 9 (int_text z)) (sp_icc p ++ [sp_ncatoms p]));
   chars "atoms"].
(** models stru.cc:479-585 save_struct *)
Definition save_struct (p : sphase) : text :=
  concat (map (fun l => l ++ endl) (save_header p)) ++ concat (map save_atom (sp_atoms p)).
