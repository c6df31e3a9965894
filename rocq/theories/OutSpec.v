(** How the results text is read: lines, sections, labels and values. *)
From Coq Require Import Ascii String List Arith ZArith Reals Bool.
From Verif Require Import Base ParserModel DataModel DataSpec FmtModel FmtSpec SaveModel ReportModel ReportSpec OutModel.
Import ListNotations.
Local Open Scope R_scope.

(** the lines of a text *)
Fixpoint lines (t : text) : list text :=
  match t with
  | [] => []
  | c :: r => if Ascii.eqb c "010" then [] :: lines r
              else match lines r with [] => [[c]] | l :: ls => (c :: l) :: ls end
  end.
Definition one_line (t : text) : Prop := ~ In "010"%char t.
(** parts of a list of lines between the lines [x] *)
Fixpoint parts (x : text) (ls : list text) : list (list text) :=
  match ls with
  | [] => [[]]
  | l :: r => if text_eqb l x then [] :: parts x r
              else match parts x r with [] => [[l]] | p :: ps => (l :: p) :: ps end
  end.
(** a line of dashes *)
Definition dashes : text := chars " ------------------------------------------------------------------------------".

(** the rest of a text that begins with [x] *)
Fixpoint strip (x t : text) : option text :=
  match x, t with
  | [], _ => Some t
  | c :: x, d :: t => if Ascii.eqb c d then strip x t else None
  | _, [] => None
  end.
(** what follows the label in the first line that has it *)
Fixpoint labelled (x : text) (ls : list text) : option text :=
  match ls with
  | [] => None
  | l :: r => match strip x l with Some t => Some t | None => labelled x r end
  end.
(** the lines after the line [x], up to an empty line *)
Fixpoint upto_empty (ls : list text) : list text := match ls with [] => [] | [] :: _ => [] | l :: r => l :: upto_empty r end.
Fixpoint after (x : text) (ls : list text) : list text :=
  match ls with [] => [] | l :: r => if text_eqb l x then r else after x r end.
Definition block (x : text) (ls : list text) : list text := upto_empty (after x ls).

(** words as values, each with the word in parentheses after it, if there is one *)
Definition paren (w : text) : bool := match w with c :: _ => Ascii.eqb c "(" | [] => false end.
Fixpoint values (ws : list text) : list (text * option text) :=
  match ws with
  | [] => []
  | w :: r => match r with
              | s :: r' => if paren s then (w, Some s) :: values r' else (w, None) :: values r
              | [] => [(w, None)]
              end
  end.
(** a value is shown with six digits, its deviation with two, unless it does not
    matter *)
Definition shown (f : text * option text) (v : vstd) : Prop :=
  value_part (fst v) (fst f) /\
  match snd v with
  | None => snd f = Some (chars "(NaN)")
  | Some dx => (matters (fst v) dx -> exists n, snd f = Some (chars "(" ++ print_numeral n ++ chars ")") /\ shows_general 2 dx n) /\
               (~ matters (fst v) dx -> snd f = None)
  end.
(** the line with the label shows these values, with a unit *)
Definition says (ls : list text) (label : string) (unit : list text) (vs : list vstd) : Prop :=
  exists t ws, labelled (chars label) ls = Some t /\ words t = ws ++ unit /\ Forall2 shown (values ws) vs.
(** a number or "not applied" *)
Definition off (x : val) : Prop := exists d, x = Some d /\ d_val d <= 0.
Definition says_off (ls : list text) (label : string) : Prop :=
  exists t, labelled (chars label) ls = Some t /\ words t = [chars "not"; chars "applied"].
Definition says_or_off (ls : list text) (label : string) (unit : list text) (v : vstd) : Prop :=
  (~ off (fst v) -> says ls label unit [v]) /\ (off (fst v) -> says_off ls label).
(** values without deviation *)
Definition certain (x : val) : vstd := (x, Some d_zero).

(** ** phases *)
Definition vstd_ok (v : vstd) : Prop := opt_ok (fst v) /\ opt_ok (snd v).
Definition atom_ok (a : oatom) : Prop :=
  symbol (oa_sym a) /\ (forall i, vstd_ok (oa_pos a i)) /\ vstd_ok (oa_occ a) /\ (forall i, vstd_ok (oa_u a i)).
Definition phase_ok (p : ophase) : Prop :=
  one_line (op_name p) /\ vstd_ok (op_pscale p) /\ vstd_ok (op_spdiameter p) /\ opt_ok (op_stepcut p) /\ opt_ok (op_corr_max p) /\
  vstd_ok (op_delta2 p) /\ vstd_ok (op_delta1 p) /\ vstd_ok (op_sratio p) /\ opt_ok (op_rcut p) /\
  (forall i, vstd_ok (op_a0 p i)) /\ (forall i, vstd_ok (op_win p i)) /\ Forall atom_ok (op_atoms p).
(** a line with the symbol of an atom and values *)
Definition atom_says (l : text) (sym : text) (vs : list vstd) : Prop :=
  exists ws, words l = upper sym :: ws /\ Forall2 shown (values ws) vs.
(** off-diagonal displacement factors that are not all zero *)
Definition has_offdiag (a : oatom) : Prop := exists i, (3 <= i <= 5)%nat /\ ~ exists d, fst (oa_u a i) = Some d /\ d_mag d = 0.
(** the displacement factors: a line for each atom and, if it has off-diagonal ones, a
    second line without symbol *)
Inductive aniso_says : list text -> list oatom -> Prop :=
| A_none : aniso_says [] []
| A_diag l ls a ats : ~ has_offdiag a -> atom_says l (oa_sym a) (map (oa_u a) [0; 1; 2]%nat) -> aniso_says ls ats -> aniso_says (l :: ls) (a :: ats)
| A_full l m ls a ats : has_offdiag a -> atom_says l (oa_sym a) (map (oa_u a) [0; 1; 2]%nat) ->
    strip (chars "       ") m <> None -> Forall2 shown (values (words m)) (map (oa_u a) [3; 4; 5]%nat) ->
    aniso_says ls ats -> aniso_says (l :: m :: ls) (a :: ats).
(** what a section says about a phase *)
Definition phase_says (p : ophase) (sec : text * list text) : Prop :=
  let (title, ls) := sec in
  title = chars " PHASE " ++ int_text (op_iphase p) ++ chars " : " ++ op_name p /\
  says ls " Scale factor           :" [] [op_pscale p] /\
  says_or_off ls "   Particle diameter    :" [chars "A"] (op_spdiameter p) /\
  says_or_off ls "   Step cutoff          :" [chars "A"] (certain (op_stepcut p)) /\
  ((exists d, op_corr_max p = Some d /\ 0 < d_val d) -> says ls " Correlation limit [A]  :" [] [certain (op_corr_max p)]) /\
  (~ (exists d, op_corr_max p = Some d /\ 0 < d_val d) -> labelled (chars " Correlation limit [A]  :") ls = None) /\
  says ls " Quad. corr. factor     :" [] [op_delta2 p] /\
  says ls " Lin. corr. factor      :" [] [op_delta1 p] /\
  says ls " Low r sigma ratio      :" [] [op_sratio p] /\
  says ls " R cutoff [A]           :" [] [certain (op_rcut p)] /\
  says ls " Lattice parameters     :" [] (map (op_a0 p) [0; 1; 2]%nat) /\
  says ls "           & angles     :" [] (map (op_win p) [0; 1; 2]%nat) /\
  Forall2 (fun l a => atom_says l (oa_sym a) (map (oa_pos a) [0; 1; 2]%nat ++ [oa_occ a]))
    (block (chars " Atom positions & occupancies :") ls) (op_atoms p) /\
  aniso_says (after (chars " Anisotropic temperature factors :") ls) (op_atoms p).

(** ** data sets *)
Definition data_ok (d : odata) : Prop :=
  one_line (od_name d) /\ opt_ok (od_rmin d) /\ opt_ok (od_rmax d) /\ opt_ok (od_deltar d) /\ opt_ok (od_rcmin d) /\ opt_ok (od_rcmax d) /\
  opt_ok (od_rfmin d) /\ opt_ok (od_rfmax d) /\ opt_ok (od_redchisq d) /\ opt_ok (od_rw d) /\
  opt_ok (od_qmax d) /\ vstd_ok (od_qdamp d) /\ vstd_ok (od_qbroad d) /\ vstd_ok (od_dscale d) /\
  Forall (fun o => match o with Some (ats, _, _) => Forall symbol ats | None => True end) (od_psel d) /\
  Forall (fun l => length l = length (od_psel d) /\ Forall vstd_ok l) [od_fatom d; od_fcell d; od_fmass d].
(** the lists of atoms of a selected phase *)
Definition sel_says (sel : option (list text * list nat * list nat) * nat) (ls : list text) : Prop :=
  match sel with
  | (None, _) => ls = []
  | (Some (ats, ii, jj), k) =>
      exists ti tj, ls = [chars "   Phase " ++ int_text (Z.of_nat k) ++ chars " :"; chars "     Atoms (i) :" ++ ti; chars "     Atoms (j) :" ++ tj] /\
      forall i a, nth_error ats i = Some a ->
        (named (upper a) (int_text (Z.of_nat i + 1)) (words ti) <-> ~ In i ii) /\
        (named (upper a) (int_text (Z.of_nat i + 1)) (words tj) <-> ~ In i jj)
  end.
(** the fractions of phase k *)
Definition frac_says (d : odata) (k : nat) (l : text) : Prop :=
  exists t a c m, l = chars " Phase " ++ int_text (Z.of_nat k + 1) ++ chars " :" ++ t /\
    nth_error (od_fatom d) k = Some a /\ nth_error (od_fcell d) k = Some c /\ nth_error (od_fmass d) k = Some m /\
    Forall2 shown (values (words t)) [a; c; m].
Definition data_says (d : odata) (sec : text * list text) : Prop :=
  let (title, ls) := sec in
  title = chars " DATA SET : " ++ int_text (od_iset d) ++ chars " (" ++ od_name d ++ chars ")" /\
  (exists t a b c, labelled (chars " Data range in r [A]    :") ls = Some t /\ words t = [a; chars "->"; b; chars "Step"; chars "dr"; chars ":"; c] /\
     value_part (od_rmin d) a /\ value_part (od_rmax d) b /\ value_part (od_deltar d) c) /\
  (exists t a b, labelled (chars " Calculated range       :") ls = Some t /\ words t = [a; chars "->"; b] /\
     value_part (od_rcmin d) a /\ value_part (od_rcmax d) b) /\
  (exists t a b, labelled (chars " Refinement r range     :") ls = Some t /\
     words t = [a; chars "->"; b; chars "Data"; chars "pts"; chars ":"; int_text (od_nfmin d); chars "->"; int_text (od_nfmax d)] /\
     value_part (od_rfmin d) a /\ value_part (od_rfmax d) b) /\
  says ls " Reduced chi squared    :" [] [certain (od_redchisq d)] /\
  says ls " Rw - value             :" [] [certain (od_rw d)] /\
  (exists t, labelled (chars "   Radiation            :") ls = Some t /\
     (od_type d = "X"%char -> words t = [chars "X-Rays"]) /\ (od_type d = "N"%char -> words t = [chars "Neutrons"])) /\
  says_or_off ls "   Termination at Qmax  :" [chars "A**-1"] (certain (od_qmax d)) /\
  says_or_off ls "   DQ dampening Qdamp   :" [chars "A**-1"] (od_qdamp d) /\
  says_or_off ls "   DQ broadening Qbroad :" [chars "A**-1"] (od_qbroad d) /\
  says ls "   Scale factor         :" [] [od_dscale d] /\
  (exists bs, block (chars " Selected phases and atoms for this data set :") ls = concat bs /\
     Forall2 sel_says (combine (od_psel d) (seq 1 (length (od_psel d)))) bs) /\
  Forall2 (frac_says d) (seq 0 (length (od_psel d)))
    (block (chars "           atoms                   unit cells              mass") ls).

(** title and body of the sections *)
Definition section_parts (s : text * list text) : list (list text) := [[fst s]; snd s].
(** the results text has a section for each phase and each data set, in their order *)
Definition result_says (ps : list ophase) (ds : list odata) (t : text) : Prop :=
  exists head pss dss rest,
    parts dashes (lines t) = head :: concat (map section_parts (pss ++ dss)) ++ [chars " PARAMETER INFORMATION :"] :: rest /\
    Forall2 phase_says ps pss /\ Forall2 data_says ds dss.
