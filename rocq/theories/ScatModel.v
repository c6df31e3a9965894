(** Model of the element lookup (PeriodicTable.cc), of the custom scattering factors
    of a phase (LocalPeriodicTable.cc, scatlen.cc) and of the phase fractions
    (pdf.cc:1654-1760).  Doubles are reals. *)
From Coq Require Import Ascii String List Arith ZArith Reals Bool.
From Verif Require Import Base ParserModel PdfModel DataModel ElementTable.
Import ListNotations.
Local Open Scope R_scope.

(** ** element lookup *)
(** C locale; bytes above 127 are no letters *)
Definition is_up (c : ascii) : bool := let n := nat_of_ascii c in (65 <=? n)%nat && (n <=? 90)%nat.
Definition is_low (c : ascii) : bool := let n := nat_of_ascii c in (97 <=? n)%nat && (n <=? 122)%nat.
Definition is_alpha (c : ascii) : bool := is_up c || is_low c.
Definition to_low (c : ascii) : ascii := if is_up c then ascii_of_nat (nat_of_ascii c + 32) else c.
Definition to_up (c : ascii) : ascii := if is_low c then ascii_of_nat (nat_of_ascii c - 32) else c.
(** models PeriodicTable.cc:87-93, first letter upper case, the rest lower case *)
Fixpoint std_case (s : text) : text :=
  match s with [] => [] | c :: r => if is_alpha c then to_up c :: map to_low r else c :: std_case r end.

Definition esym (e : element) : text := chars (el_symbol e).
Definition ename (e : element) : text := chars (el_name e).
(** models PeriodicTable.cc:182-201 init, the entries of symbol_index; the last
    assignment to a key wins, so later entries come first *)
Definition find_first (f : element -> text) (tbl : list element) (k : text) : option element := find (fun e => text_eqb (f e) k) tbl.
Definition sym_plain (tbl : list element) (k : text) : option element := find_first esym (rev tbl) k.
Definition name_index (tbl : list element) (k : text) : option element := find_first ename (rev tbl) k.
Definition symbol_index0 (lk : text -> option element) (tbl : list element) (k : text) : option element :=
  if text_eqb k (chars "3-H") then lk (chars "T")
  else if text_eqb k (chars "2-H") then lk (chars "D")
  else sym_plain tbl k.
(** models PeriodicTable.cc:85-104 lookup with a given symbol_index *)
Definition lookup_in (si : text -> option element) (tbl : list element) (s : text) : option element :=
  let s := std_case s in match si s with Some e => Some e | None => name_index tbl s end.
(** lookup("D") and lookup("T") in init see the plain index *)
Definition symbol_index (tbl : list element) : text -> option element := symbol_index0 (lookup_in (sym_plain tbl) tbl) tbl.
Definition pt_lookup (tbl : list element) (s : text) : option element := lookup_in (symbol_index tbl) tbl s.

(** ** the table of one phase *)
(** the scattering factors of an AtomType: xsf, nsf *)
Definition dec_R (x : Z * nat) : R := IZR (fst x) / 10 ^ snd x.
Definition std_sf (e : element) : R * R := (dec_R (el_xsf e), dec_R (el_nsf e)).
(** models LocalPeriodicTable.h:57 _local_table *)
Definition ltable : Type := list (text * (R * R)).
Fixpoint lt_find (t : ltable) (k : text) : option (R * R) :=
  match t with [] => None | (k', v) :: r => if text_eqb k' k then Some v else lt_find r k end.
Fixpoint lt_set (t : ltable) (k : text) (v : R * R) : ltable :=
  match t with [] => [(k, v)] | (k', v') :: r => if text_eqb k' k then (k', v) :: r else (k', v') :: lt_set r k v end.
(** models LocalPeriodicTable.cc:127-144 local_symbol: the factors and the table *)
Definition local_symbol (tbl : list element) (t : ltable) (k : text) : outcome ((R * R) * ltable) :=
  match lt_find t k with
  | Some v => Ok (v, t)
  | None => match symbol_index tbl k with
            | Some e => Ok (std_sf e, t ++ [(k, std_sf e)])
            | None => Err ErrValue
            end
  end.
(** models LocalPeriodicTable.cc:73-84 lookup: symbol, factors and the table *)
Definition local_lookup (tbl : list element) (t : ltable) (pat : text) : outcome (text * (R * R) * ltable) :=
  match pt_lookup tbl pat with
  | None => Err ErrValue
  | Some e => omap (fun x => (esym e, fst x, snd x)) (local_symbol tbl t (esym e))
  end.
(** models AtomType.h:56-73 sf *)
Definition sf (tp : ascii) (v : R * R) : outcome R :=
  if Ascii.eqb tp "x" || Ascii.eqb tp "X" then Ok (fst v)
  else if Ascii.eqb tp "n" || Ascii.eqb tp "N" then Ok (snd v)
  else Err ErrPlain.
(** models scatlen.cc:74-95 set_scat (misc.cc turns both exceptions into
    ValueError); the table is kept when the radiation is refused *)
Definition set_scat (tbl : list element) (t : ltable) (tp : ascii) (pat : text) (v : R) : ltable * outcome unit :=
  match local_lookup tbl t pat with
  | Ok (k, _, t) =>
      if Ascii.eqb tp "n" || Ascii.eqb tp "N" then
        match local_symbol tbl t k with Ok (o, t) => (lt_set t k (fst o, v), Ok tt) | _ => (t, Err ErrValue) end
      else if Ascii.eqb tp "x" || Ascii.eqb tp "X" then
        match local_symbol tbl t k with Ok (o, t) => (lt_set t k (v, snd o), Ok tt) | _ => (t, Err ErrValue) end
      else (t, Err ErrPlain)
  | _ => (t, Err ErrValue)
  end.
(** models scatlen.cc:97-105 reset_scat and LocalPeriodicTable.cc:93-107 reset *)
Definition reset_scat (tbl : list element) (t : ltable) (pat : text) : ltable * outcome unit :=
  match local_lookup tbl t pat with
  | Ok (k, _, t) =>
      match symbol_index tbl k with
      | Some e => match lt_find t k with Some _ => (lt_set t k (std_sf e), Ok tt) | None => (t, Ok tt) end
      | None => (t, Err ErrValue)
      end
  | _ => (t, Err ErrValue)
  end.
(** models pdffit.cc:355-369 get_scat with the table of the current phase, or with
    a table without custom values *)
Definition get_scat (tbl : list element) (t : ltable) (tp : ascii) (pat : text) : outcome R :=
  match local_lookup tbl t pat with
  | Ok (_, v, _) => match sf tp v with Ok x => Ok x | _ => Err ErrValue end
  | _ => Err ErrValue
  end.

(** ** histories *)
(** a new phase, PdfFit::reset, and the calls on phase number p (the current one);
    misc.cc:1500-1559 refuses them when there is no such phase *)
Inductive scat_op : Type :=
  | NewPhase | ClearAll
  | SetScat (p : nat) (tp : ascii) (pat : text) (v : R)
  | ResetScat (p : nat) (pat : text)
  | GetScat (p : nat) (tp : ascii) (pat : text).
Fixpoint upd_nth {A} (l : list A) (n : nat) (x : A) : list A :=
  match l, n with [] , _ => [] | _ :: r, O => x :: r | y :: r, S n => y :: upd_nth r n x end.
(** models the effect of one call on the tables of all phases; a look at a value
    may add an entry (LocalPeriodicTable.cc:140) *)
Definition scat_step (tbl : list element) (l : list ltable) (o : scat_op) : list ltable :=
  match o with
  | NewPhase => l ++ [[]]
  | ClearAll => []
  | SetScat p tp pat v => match nth_error l p with Some t => upd_nth l p (fst (set_scat tbl t tp pat v)) | None => l end
  | ResetScat p pat => match nth_error l p with Some t => upd_nth l p (fst (reset_scat tbl t pat)) | None => l end
  | GetScat p tp pat => match nth_error l p with
                        | Some t => match local_lookup tbl t pat with Ok (_, _, t) => upd_nth l p t | _ => l end
                        | None => l
                        end
  end.
Definition scat_run (tbl : list element) (ops : list scat_op) : list ltable := fold_left (scat_step tbl) ops [].

(** ** phase fractions *)
(** what is used of a phase: pscale, dpscale, np and occ, sf, M of the atoms *)
Record fphase : Type := mkFp { fp_pscale : R; fp_dpscale : R; fp_np : R; fp_atoms : list (R * R * R) }.
(** models pdf.cc:776-786 averageAtomicMass and pdf.cc:791-800
    averageScatteringFactor *)
Definition avg_mass (p : fphase) : num := ndiv (Some (fold_left (fun s a => s + fst (fst a) * snd a) (fp_atoms p) 0)) (Some (fp_np p)).
Definition avg_sf (p : fphase) : num := ndiv (Some (fold_left (fun s a => s + fst (fst a) * snd (fst a)) (fp_atoms p) 0)) (Some (fp_np p)).
Inductive norm_by : Type := ByAtom | ByCell | ByMass.
(** models pdf.cc:1668-1670, 1705-1707, 1740-1743, xi for a scale and a phase *)
Definition amount (k : norm_by) (s : R) (p : fphase) : num :=
  let b := avg_sf p in
  match k with
  | ByAtom => ndiv (Some s) (nmul b b)
  | ByCell => ndiv (Some s) (nmul (nmul b b) (Some (fp_np p)))
  | ByMass => ndiv (nmul (Some s) (avg_mass p)) (nmul b b)
  end.
Definition amount_opt (k : norm_by) (s : fphase -> R) (p : option fphase) : num := match p with None => Some 0 | Some p => amount k (s p) p end.
Definition nsum (l : list num) : num := fold_left nadd l (Some 0).
(** models pdf.cc:1654-1761, the three functions differ in xi, dxi only.  When xtot
    is not finite the outcome of the test 0 < xtot is not modelled: nothing is
    said about the entries *)
Definition fractions (k : norm_by) (sel : list (option fphase)) : list (num * num) :=
  let xi := map (amount_opt k fp_pscale) sel in
  let dxi := map (amount_opt k fp_dpscale) sel in
  let dx2tot := nsum (map (fun d => nmul d d) dxi) in
  match nsum xi with
  | None => map (fun _ => (None, None)) sel
  | Some xtot =>
      if Rlt_dec 0 xtot then
        map (fun xd => let '(x, dx) := xd in
               let fi := ndiv x (Some xtot) in
               let dfi2 := ndiv (nadd (nmul (nmul dx dx) (nsub (Some (xtot * xtot)) (nmul (Some (2 * xtot)) x))) (nmul (nmul x x) dx2tot)) (Some (xtot ^ 4)) in
               (fi, match dfi2 with Some q => nsqrt q | None => None end))
            (combine xi dxi)
      else map (fun _ => (Some 0, Some 0)) sel
  end.
