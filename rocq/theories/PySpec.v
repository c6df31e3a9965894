(** Specification vocabulary for references to variables in Python. *)
From Coq Require Import Ascii String.
From Coq Require Import List ZArith Reals Bool.
From Verif Require Import Base SessModel.
From Verif Require ParamModel ParserModel DataSpec SessSpec ConModel.
Import ListNotations.
Local Open Scope Z_scope.
Notation text := ParserModel.text.
Notation chars := ParserModel.chars.

(** blank, tab, newline and the other white space of ASCII *)
Definition white (b : text) : Prop := Forall (fun c => In (nat_of_ascii c) [9; 10; 11; 12; 13; 28; 29; 30; 31; 32]%nat) b.
Definition brackets (b : text) : Prop := Forall (fun c => c = ")"%char) b.

(** a whole number: sign, and digits in groups with underscores between them *)
Fixpoint print_groups (g : list (list nat)) : text :=
  match g with
  | [] => []
  | [d] => DataSpec.print_digits d
  | d :: r => DataSpec.print_digits d ++ "_"%char :: print_groups r
  end.
Definition whole_number (w : text) (i : Z) : Prop :=
  exists sgn g, w = DataSpec.print_sign sgn ++ print_groups g /\ g <> [] /\
    Forall (fun d => d <> [] /\ Forall (fun k => (k < 10)%nat) d) g /\
    i = DataSpec.sign_of sgn * DataSpec.whole_z (concat g).

(** the names of the variables: per phase and indexed, per phase, per data set *)
Definition indexed : list (text * vname) :=
  map (fun p => (chars (fst p), snd p))
  [("lat", Vlat); ("x", Vatom Ax); ("y", Vatom Ay); ("z", Vatom Az); ("u11", Vatom Au11); ("u22", Vatom Au22); ("u33", Vatom Au33);
   ("u12", Vatom Au12); ("u13", Vatom Au13); ("u23", Vatom Au23); ("occ", Vatom Aocc)]%string.
Definition of_phase : list (text * loc) :=
  map (fun p => (chars (fst p), snd p))
  [("pscale", LPscale); ("spdiameter", LSpdiameter); ("stepcut", LStepcut); ("delta1", LDelta1); ("delta2", LDelta2); ("sratio", LSratio); ("rcut", LRcut)]%string.
Definition of_set : list (text * loc) :=
  map (fun p => (chars (fst p), snd p)) [("dscale", LDscale); ("qdamp", LQdamp); ("qbroad", LQbroad)]%string.

(** what a text means: element i of an indexed variable, or a single variable *)
Inductive denotes : text -> vname * Z + text -> Prop :=
| den_indexed b1 name v b2 r1 b3 w i b4 r2 :
    white b1 -> In (name, v) indexed -> white b2 -> brackets r1 -> white b3 -> whole_number w i -> white b4 -> brackets r2 ->
    denotes (b1 ++ name ++ b2 ++ "("%char :: r1 ++ b3 ++ w ++ b4 ++ r2) (inl (v, i))
| den_single b1 name b2 : white b1 -> In name (map fst of_phase ++ map fst of_set) -> white b2 ->
    denotes (b1 ++ name ++ b2) (inr name).

(** the place a meaning has: an object and a variable in it *)
Definition lives (s : session) (d : vname * Z + text) (a : addr) (l : loc) : Prop :=
  match d with
  | inl (v, i) => exists p, SessSpec.cur_phase s p /\ a = ph_addr p /\ 1 <= i <= SessSpec.vsize v p /\ l = SessSpec.vloc v (Z.to_nat (i - 1))
  | inr name => (exists p, SessSpec.cur_phase s p /\ a = ph_addr p /\ In (name, l) of_phase) \/
                (exists e, SessSpec.cur_set s e /\ a = ds_addr e /\ In (name, l) of_set)
  end.
(** the value there *)
Definition value_at (s : session) (a : addr) (l : loc) (x : R) : Prop :=
  (exists p, In p (s_phases s) /\ ph_addr p = a /\ ph_val p l = x) \/ (exists e, In e (s_sets s) /\ ds_addr e = a /\ ds_val e l = x).
(** s' is s with this place set to x *)
Definition only_place (s s' : session) (a : addr) (l : loc) (x : R) : Prop :=
  (exists p, In p (s_phases s) /\ ph_addr p = a /\ SessSpec.only_phase_var s s' p l x) \/
  (exists e, In e (s_sets s) /\ ds_addr e = a /\ SessSpec.only_set_var s s' e l x).

(** functions of the extension module that are no variables *)
Definition functions : list text :=
  map chars
  ["copyright"; "create"; "read_struct"; "read_struct_string"; "read_data"; "read_data_string"; "read_data_arrays"; "pdfrange"; "reset"; "alloc";
   "calc"; "refine"; "refine_step"; "save_pdf"; "save_dif"; "save_res"; "save_struct"; "show_struct"; "constrain_int"; "constrain_str"; "setpar_dbl";
   "setpar_RV"; "setvar"; "getvar"; "getR"; "getpdf_fit"; "getpdf_obs"; "getpdf_diff"; "getcrw"; "getrw"; "getpar"; "fixpar"; "freepar"; "setphase";
   "setdata"; "psel"; "pdesel"; "selectAtomType"; "selectAtomIndex"; "selectAll"; "selectNone"; "bond_angle"; "bond_length_atoms"; "bond_length_types";
   "get_scat_string"; "get_scat"; "set_scat"; "reset_scat"; "get_atoms"; "num_atoms"; "get_atom_types"; "num_phases"; "num_datasets"; "phase_fractions";
   "redirect_stdout"; "restore_stdout"; "is_element"; "RuntimeException"; "unassignedError"; "dataError"; "structureError"; "calculationError";
   "constraintError"]%string.
(** the word a text begins with *)
Definition begins_with (name t : text) : Prop := exists b r, t = b ++ name ++ r /\ white b.

(** a text of the shape of a reference: a name, or a name and a number in brackets *)
Definition shaped (name t : text) (o : option Z) : Prop :=
  match o with
  | None => exists b1 b2, t = b1 ++ name ++ b2 /\ white b1 /\ white b2
  | Some i => exists b1 b2 r1 b3 w b4 r2, t = b1 ++ name ++ b2 ++ "("%char :: r1 ++ b3 ++ w ++ b4 ++ r2 /\
      white b1 /\ white b2 /\ brackets r1 /\ white b3 /\ whole_number w i /\ white b4 /\ brackets r2
  end.
(** all names of the module *)
Definition known : list text := map fst indexed ++ map fst of_phase ++ map fst of_set ++ functions.
(** a text that is w but for the case of its letters; w has capitals only *)
Definition letters_of (w t : text) : Prop := Forall2 (fun c d => c = d \/ (nat_of_ascii d = nat_of_ascii c + 32)%nat) w t.
(** the kinds of constraints by name; no name, or an empty one, is the identity *)
Definition con_types : list (text * ConModel.fcon) :=
  map (fun p => (chars (fst p), snd p)) [("", ConModel.IDENT); ("USER", ConModel.IDENT); ("IDENT", ConModel.IDENT); ("FCOMP", ConModel.FCOMP); ("FSQR", ConModel.FSQR)]%string.
(** functions of the module that change the session when they are called with the
    object alone or with one number *)
Definition acting : list text := map chars ["reset"; "setphase"; "setdata"; "psel"; "pdesel"]%string.
(** the number of a lattice parameter *)
Definition lattice_numbers : list (text * Z) :=
  map (fun p => (chars (fst p), snd p)) [("a", 1); ("b", 2); ("c", 3); ("alpha", 4); ("beta", 5); ("gamma", 6)]%string.
(** functions, and classes of exceptions, that can be called with the object alone, and
    those that can be called with one number more; some take anything *)
Definition anyhow : list text := map chars ["copyright"; "create"; "RuntimeException"; "unassignedError"; "dataError"; "structureError"; "calculationError"; "constraintError"]%string.
Definition alone : list text :=
  map chars ["reset"; "calc"; "getR"; "getpdf_fit"; "getpdf_obs"; "getpdf_diff"; "getcrw"; "getrw"; "get_atoms"; "num_atoms"; "get_atom_types";
             "num_phases"; "num_datasets"; "phase_fractions"]%string ++ anyhow.
Definition with_number : list text :=
  map chars ["refine"; "refine_step"; "show_struct"; "getvar"; "getpar"; "fixpar"; "freepar"; "setphase"; "setdata"; "psel"; "pdesel"; "get_atoms"; "get_atom_types"]%string ++ anyhow.
(** words for values that are not finite, in capitals *)
Definition not_finite : list text := map chars ["INF"; "INFINITY"; "NAN"]%string.
