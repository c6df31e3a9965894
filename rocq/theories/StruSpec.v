(** Specification vocabulary for structure texts. *)
From Coq Require Import Ascii String List Arith ZArith Reals Bool.
From Verif Require Import Base MathModel MetricModel MetricSpec ParserModel PdfModel PdfSpec DataModel DataSpec ElementTable ScatModel ScatSpec FmtModel FmtSpec StruModel.
Import ListNotations.
Local Open Scope R_scope.

(** ** texts *)
Definition wordy (w : text) : Prop := w <> [] /\ Forall (fun c => is_space c = false) w.
(** lines, each ended by a newline *)
Definition lines_text (ls : list text) : text := concat (map (fun l => l ++ [newline]) ls).
Definition one_line (l : text) : Prop := ~ In newline l.
(** the line l has first word w, and r follows it *)
Definition first_word (l w r : text) : Prop :=
  exists b, l = b ++ w ++ r /\ blanks b /\ wordy w /\ starts_blank r.
(** the first line of a text has a word *)
Definition word_next (t : text) : Prop := exists b c r, t = b ++ c :: r /\ blanks b /\ one_line b /\ is_space c = false.

(** the double a numeral stands for *)
Definition dbl_of (n : numeral) : dbl := mkDbl (match nu_sign n with Some true => true | _ => false end) (Rabs (numeral_value n)).
(** values separated by blanks or by one comma *)
Definition sep (s : text) : Prop := blanks s /\ s <> [] \/ exists b1 b2, s = b1 ++ ","%char :: b2 /\ blanks b1 /\ blanks b2.
Definition row_text {A : Type} (print : A -> text) (row : list (text * A)) : text := concat (map (fun x => fst x ++ print (snd x)) row).
Definition row_seps {A : Type} (row : list (text * A)) : Prop :=
  match row with [] => True | x :: r => blanks (fst x) /\ Forall (fun y => sep (fst y)) r end.
(** doubles *)
Definition values (l : text) (vs : list dbl) (trail : text) : Prop :=
  exists row, l = row_text print_numeral row ++ trail /\ row_seps row /\ Forall (fun x => numeral_ok (snd x)) row /\
  vs = map (fun x => dbl_of (snd x)) row /\ stops trail.
(** integers: sign and digits, within 32 bits *)
Definition print_int (n : option bool * list nat) : text := print_sign (fst n) ++ print_digits (snd n).
Definition int_value (n : option bool * list nat) : Z := (sign_of (fst n) * whole_z (snd n))%Z.
Definition int_fits (z : Z) : Prop := (-2147483648 <= z <= 2147483647)%Z.
Definition int_ok (n : option bool * list nat) : Prop :=
  snd n <> [] /\ Forall (fun k => (k < 10)%nat) (snd n) /\ int_fits (int_value n).
Definition int_stops (r : text) : Prop := match r with [] => True | c :: _ => is_digit c = false end.
Definition int_values (l : text) (vs : list Z) (trail : text) : Prop :=
  exists row, l = row_text print_int row ++ trail /\ row_seps row /\ Forall (fun x => int_ok (snd x)) row /\
  vs = map (fun x => int_value (snd x)) row /\ int_stops trail.
(** nothing that could be one more value *)
Definition ends (trail : text) : Prop :=
  exists b r, trail = b ++ r /\ blanks b /\
  match r with [] => True | c :: _ => is_space c = false /\ is_digit c = false /\ c <> "."%char /\ c <> "+"%char /\ c <> "-"%char /\ c <> ","%char end.

(** ** header *)
Inductive meaning : Type :=
  | MFormat (discus : bool) | MScale (x : dbl) | MSharp (d2 d1 sr rc : dbl) | MSpcgr (w : text) | MSphere (x : dbl) | MStepcut (x : dbl)
  | MTitle (t : text) | MCell (a w : list dbl) | MDcell (a w : list dbl) | MNcell (i : list Z) (n : Z) | MNothing.
Definition keywords : list text :=
  map chars ["atoms"; "format"; "scale"; "sharp"; "spcgr"; "shape"; "title"; "cell"; "dcell"; "ncell"]%string.
Definition gap (s : text) : Prop := s <> [] /\ Forall (fun c => is_space c = true \/ c = ","%char) s.
Definition tab : ascii := "009"%char.

(** what a line says *)
Inductive says : text -> meaning -> Prop :=
  | S_format l r w q : first_word l (chars "format") r -> first_word r w q -> w <> chars "pdffit" -> says l (MFormat true)
  | S_pdffit l r q : first_word l (chars "format") r -> first_word r (chars "pdffit") q -> says l (MFormat false)
  | S_format_only l r : first_word l (chars "format") r -> blanks r -> says l (MFormat true)
  | S_scale l r x tr : first_word l (chars "scale") r -> values r [x] tr -> says l (MScale x)
  | S_sharp l r d2 d1 sr rc tr : first_word l (chars "sharp") r -> values r [d2; d1; sr; rc] tr -> says l (MSharp d2 d1 sr rc)
  | S_sharp_old l r d2 sr rc tr : first_word l (chars "sharp") r -> values r [d2; sr; rc] tr -> ends tr -> says l (MSharp d2 d_zero sr rc)
  | S_spcgr l r w q : first_word l (chars "spcgr") r -> first_word r w q -> says l (MSpcgr w)
  | S_spcgr_only l r : first_word l (chars "spcgr") r -> blanks r -> says l MNothing
  | S_sphere l r g1 g2 n tr : first_word l (chars "shape") r -> r = g1 ++ chars "sphere" ++ g2 ++ print_numeral n ++ tr ->
      gap g1 -> gap g2 -> numeral_ok n -> stops tr -> says l (MSphere (dbl_of n))
  | S_stepcut l r g1 g2 n tr : first_word l (chars "shape") r -> r = g1 ++ chars "stepcut" ++ g2 ++ print_numeral n ++ tr ->
      gap g1 -> gap g2 -> numeral_ok n -> stops tr -> says l (MStepcut (dbl_of n))
  | S_title l b t : first_word l (chars "title") (b ++ t) -> b ++ t <> [] -> Forall (fun c => c = " "%char \/ c = tab) b ->
      match t with [] => True | c :: _ => c <> " "%char /\ c <> tab end -> says l (MTitle t)
  | S_title_only l : first_word l (chars "title") [] -> says l MNothing
  | S_cell l r a b c al be ga tr : first_word l (chars "cell") r -> values r [a; b; c; al; be; ga] tr -> says l (MCell [a; b; c] [al; be; ga])
  | S_dcell l r a b c al be ga tr : first_word l (chars "dcell") r -> values r [a; b; c; al; be; ga] tr -> says l (MDcell [a; b; c] [al; be; ga])
  | S_ncell l r i j k n tr : first_word l (chars "ncell") r -> int_values r [i; j; k; n] tr -> says l (MNcell [i; j; k] n)
  | S_other l w r : first_word l w r -> ~ In w keywords -> says l MNothing.

(** the last line that says something about an item counts *)
Definition final {A : Type} (f : meaning -> option A) (ms : list meaning) (d : A) : A :=
  fold_left (fun a m => match f m with Some x => x | None => a end) ms d.
Definition described (ms : list meaning) (ats : list satom) : sphase :=
  mkSp (final (fun m => match m with MTitle t => Some t | _ => None end) ms (chars "UNNAMED"))
       (final (fun m => match m with MSpcgr t => Some t | _ => None end) ms (chars "P1"))
       (final (fun m => match m with MScale x => Some x | _ => None end) ms d_one)
       (final (fun m => match m with MSharp x _ _ _ => Some x | _ => None end) ms d_zero)
       (final (fun m => match m with MSharp _ x _ _ => Some x | _ => None end) ms d_zero)
       (final (fun m => match m with MSharp _ _ x _ => Some x | _ => None end) ms d_one)
       (final (fun m => match m with MSharp _ _ _ x => Some x | _ => None end) ms d_zero)
       (final (fun m => match m with MSphere x => Some x | _ => None end) ms d_zero)
       (final (fun m => match m with MStepcut x => Some x | _ => None end) ms d_zero)
       (final (fun m => match m with MCell a _ => Some a | _ => None end) ms [d_zero; d_zero; d_zero])
       (final (fun m => match m with MCell _ w => Some w | _ => None end) ms [d_zero; d_zero; d_zero])
       (final (fun m => match m with MDcell a _ => Some a | _ => None end) ms [d_zero; d_zero; d_zero])
       (final (fun m => match m with MDcell _ w => Some w | _ => None end) ms [d_zero; d_zero; d_zero])
       (final (fun m => match m with MNcell i _ => Some i | _ => None end) ms [0; 0; 0]%Z)
       (final (fun m => match m with MNcell _ n => Some n | _ => None end) ms 0%Z)
       (repeat d_zero 5) ats.
Definition discus_format (ms : list meaning) : bool := final (fun m => match m with MFormat d => Some d | _ => None end) ms true.

(** ** atoms *)
Definition isotropic (b : dbl) (u : list dbl) : Prop :=
  exists v, u = [v; v; v; d_zero; d_zero; d_zero] /\ d_neg v = d_neg b /\ d_val v = d_val b / (8 * PI ^ 2).
(** the numbers of an atom, in the order of the file *)
Definition atom_is (discus : bool) (e : element) (v : list dbl) (a : satom) : Prop :=
  sa_sym a = esym e /\
  if discus then exists x y z b, v = [x; y; z; b] /\ sa_pos a = [x; y; z] /\ sa_occ a = d_one /\ isotropic b (sa_u a) /\
    sa_dpos a = [d_zero; d_zero; d_zero] /\ sa_docc a = d_zero /\ sa_du a = repeat d_zero 6
  else exists x y z occ dx dy dz docc u11 u22 u33 du11 du22 du33 u12 u13 u23 du12 du13 du23,
    v = [x; y; z; occ; dx; dy; dz; docc; u11; u22; u33; du11; du22; du33; u12; u13; u23; du12; du13; du23] /\
    sa_pos a = [x; y; z] /\ sa_occ a = occ /\ sa_dpos a = [dx; dy; dz] /\ sa_docc a = docc /\
    sa_u a = [u11; u22; u33; u12; u13; u23] /\ sa_du a = [du11; du22; du33; du12; du13; du23].
(** numbers separated by blanks (line ends count as blanks) *)
Definition atom_row (row : list (text * numeral)) : Prop :=
  Forall (fun x => blanks (fst x) /\ fst x <> [] /\ numeral_ok (snd x)) row.
(** a text in which no further atom can be read: no word, or too few numbers *)
Definition no_atom (discus : bool) (t : text) : Prop :=
  blanks t \/ exists b w row r, t = b ++ w ++ row_text print_numeral row ++ r /\ blanks b /\ wordy w /\ atom_row row /\
    (length row < if discus then 4 else 20)%nat /\ no_number r /\ starts_blank r.
(** a text gives atoms *)
Inductive lists_atoms (discus : bool) : text -> list satom -> Prop :=
  | LA_end t : no_atom discus t -> lists_atoms discus t []
  | LA_atom b w e row r a ats : blanks b -> wordy w -> means w e -> atom_row row -> stops r ->
      atom_is discus e (map (fun x => dbl_of (snd x)) row) a -> lists_atoms discus r ats ->
      lists_atoms discus (b ++ w ++ row_text print_numeral row ++ r) (a :: ats).
(** a text gives these atoms and then t follows *)
Inductive lists_before (discus : bool) : text -> list satom -> text -> Prop :=
  | LB_end t : lists_before discus t [] t
  | LB_atom b w e row r a ats t : blanks b -> wordy w -> means w e -> atom_row row -> stops r ->
      atom_is discus e (map (fun x => dbl_of (snd x)) row) a -> lists_before discus r ats t ->
      lists_before discus (b ++ w ++ row_text print_numeral row ++ r) (a :: ats) t.

(** ** phases *)
Definition cell_valid (p : sphase) : Prop :=
  let c i := cos (d_val (nth i (sp_win p) d_zero) * PI / 180) in double_eps < gram (c 0%nat) (c 1%nat) (c 2%nat).
Definition cells_of (p : sphase) : Z := (nth 0 (sp_icc p) 0 * nth 1 (sp_icc p) 0 * nth 2 (sp_icc p) 0)%Z.
Definition counts_match (p : sphase) : Prop := (cells_of p * sp_ncatoms p = Z.of_nat (length (sp_atoms p)))%Z.
(** the products of the numbers of cells and atoms stay within 32 bits *)
Definition counts_fit (p : sphase) : Prop :=
  int_fits (nth 0 (sp_icc p) 0 * nth 1 (sp_icc p) 0)%Z /\ int_fits (cells_of p) /\ int_fits (cells_of p * sp_ncatoms p)%Z.

Definition good_sym (s : text) : Prop := exists e, In e elements /\ s = esym e.
Definition dbls (n : nat) (l : list dbl) : Prop := length l = n /\ Forall dbl_ok l.
Definition good_atom (a : satom) : Prop :=
  good_sym (sa_sym a) /\ dbls 3 (sa_pos a) /\ dbls 3 (sa_dpos a) /\ dbls 6 (sa_u a) /\ dbls 6 (sa_du a) /\ dbl_ok (sa_occ a) /\ dbl_ok (sa_docc a).
(** a phase as the reader leaves it, whatever the values of the numbers *)
Definition good_phase (p : sphase) : Prop :=
  one_line (sp_name p) /\ match sp_name p with [] => True | c :: _ => c <> " "%char /\ c <> tab end /\ wordy (sp_spcgr p) /\
  Forall dbl_ok [sp_pscale p; sp_delta2 p; sp_delta1 p; sp_sratio p; sp_rcut p; sp_spdiam p; sp_stepcut p] /\
  dbls 3 (sp_a0 p) /\ dbls 3 (sp_win p) /\ dbls 3 (sp_da0 p) /\ dbls 3 (sp_dwin p) /\
  length (sp_icc p) = 3%nat /\ Forall int_fits (sp_icc p) /\ int_fits (sp_ncatoms p) /\
  Forall good_atom (sp_atoms p) /\ counts_fit p /\ counts_match p.

(** y is x rounded to k decimals *)
Definition near (k : nat) (x y : dbl) : Prop :=
  d_neg y = d_neg x /\ Rabs (d_mag y - d_mag x) <= 1 / 2 * / 10 ^ k /\ exists z, d_mag y * 10 ^ k = IZR z.
Definition near_atom (a b : satom) : Prop :=
  sa_sym b = sa_sym a /\ Forall2 (near 8) (sa_pos a) (sa_pos b) /\ near 4 (sa_occ a) (sa_occ b) /\
  Forall2 (near 8) (sa_dpos a) (sa_dpos b) /\ near 4 (sa_docc a) (sa_docc b) /\
  Forall2 (near 8) (sa_u a) (sa_u b) /\ Forall2 (near 8) (sa_du a) (sa_du b).
(** a correction is kept when it is positive, otherwise it is not applied *)
Definition near_shape (x y : dbl) : Prop := (0 < d_val x /\ near 6 x y) \/ (d_val x <= 0 /\ y = d_zero).
(** q is p up to the printed decimals; the deviations outside the cell and the atoms are gone *)
Definition near_phase (p q : sphase) : Prop :=
  sp_name q = sp_name p /\ sp_spcgr q = sp_spcgr p /\
  Forall2 (near 6) [sp_pscale p; sp_delta2 p; sp_delta1 p; sp_sratio p; sp_rcut p] [sp_pscale q; sp_delta2 q; sp_delta1 q; sp_sratio q; sp_rcut q] /\
  near_shape (sp_spdiam p) (sp_spdiam q) /\ near_shape (sp_stepcut p) (sp_stepcut q) /\
  Forall2 (near 6) (sp_a0 p) (sp_a0 q) /\ Forall2 (near 6) (sp_win p) (sp_win q) /\
  Forall2 (near 6) (sp_da0 p) (sp_da0 q) /\ Forall2 (near 6) (sp_dwin p) (sp_dwin q) /\
  sp_icc q = sp_icc p /\ sp_ncatoms q = sp_ncatoms p /\ sp_dev q = repeat d_zero 5 /\
  Forall2 near_atom (sp_atoms p) (sp_atoms q).
(** a correction too small for six decimals *)
Definition not_tiny (x : dbl) : Prop := d_val x <= 0 \/ 1 / 2000000 < d_val x.
(** numbers that have no more than k decimals *)
Definition decimals (k : nat) (x : dbl) : Prop := exists z, d_mag x * 10 ^ k = IZR z.
Definition exact_atom (a : satom) : Prop :=
  Forall (decimals 8) (sa_pos a ++ sa_dpos a ++ sa_u a ++ sa_du a) /\ Forall (decimals 4) [sa_occ a; sa_docc a].
Definition exact_shape (x : dbl) : Prop := x = d_zero \/ (0 < d_val x /\ decimals 6 x).
Definition exact_phase (p : sphase) : Prop :=
  Forall (decimals 6) ([sp_pscale p; sp_delta2 p; sp_delta1 p; sp_sratio p; sp_rcut p] ++ sp_a0 p ++ sp_win p ++ sp_da0 p ++ sp_dwin p) /\
  exact_shape (sp_spdiam p) /\ exact_shape (sp_stepcut p) /\ sp_dev p = repeat d_zero 5 /\ Forall exact_atom (sp_atoms p).

(** ** inserted lines *)
(** lines of a header: none of them is the line "atoms" *)
Definition in_header (ls : list text) : Prop := Forall one_line ls /\ forall l r, In l ls -> ~ first_word l (chars "atoms") r.
(** the first word of the last line that has one *)
Definition last_word (ls : list text) (w : text) : Prop :=
  exists a l r b, ls = a ++ l :: b /\ first_word l w r /\ Forall blanks b.
Definition comment (l : text) : Prop := exists w r, first_word l ("#"%char :: w) r.
Definition with_values : list text := map chars ["scale"; "sharp"; "shape"; "cell"; "dcell"; "ncell"]%string.
