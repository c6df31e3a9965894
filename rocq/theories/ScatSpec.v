(** Specification vocabulary for elements, scattering factors and phase fractions. *)
From Coq Require Import Ascii String List Arith ZArith Reals Bool.
From Verif Require Import Base ParserModel RSum PdfModel DataModel ElementTable ScatModel.
Import ListNotations.
Local Open Scope R_scope.

(** ** elements *)
(** the same characters, or the same letter in upper and lower case *)
Definition same_letter (c d : ascii) : Prop :=
  c = d \/ exists k, (k < 26)%nat /\ ((c = ascii_of_nat (65 + k) /\ d = ascii_of_nat (97 + k)) \/ (d = ascii_of_nat (65 + k) /\ c = ascii_of_nat (97 + k))).
Definition same_but_case (a b : text) : Prop := Forall2 same_letter a b.
(** the element meant by a query: its symbol or name in any case; 2-H and 3-H are
    deuterium and tritium *)
Definition means (q : text) (e : element) : Prop :=
  In e elements /\
  (same_but_case q (chars (el_symbol e)) \/ same_but_case q (chars (el_name e)) \/
   (same_but_case q (chars "2-H") /\ el_symbol e = "D"%string) \/ (same_but_case q (chars "3-H") /\ el_symbol e = "T"%string)).

(** ** scattering factors *)
Inductive radiation : Type := XRay | Neutron.
Definition radiation_of (tp : ascii) (r : radiation) : Prop :=
  match r with XRay => tp = "x"%char \/ tp = "X"%char | Neutron => tp = "n"%char \/ tp = "N"%char end.
(** the value in the table of elements *)
Definition standard (e : element) (r : radiation) : R :=
  let x := match r with XRay => el_xsf e | Neutron => el_nsf e end in IZR (fst x) / 10 ^ snd x.
(** the number of phases after a history, latest call first *)
Fixpoint phases_of (h : list scat_op) : nat :=
  match h with [] => 0 | NewPhase :: h => S (phases_of h) | ClearAll :: _ => 0 | _ :: h => phases_of h end.
(** after the history h (latest call first) the factor of element e of phase p is v:
    the last value given for this phase, element and radiation, unless the element
    was reset later or the phases were cleared *)
Inductive factor_is (p : nat) (e : element) (r : radiation) : list scat_op -> R -> Prop :=
  | FI_start : factor_is p e r [] (standard e r)
  | FI_new h v : factor_is p e r h v -> factor_is p e r (NewPhase :: h) v
  | FI_clear h : factor_is p e r (ClearAll :: h) (standard e r)
  | FI_get h v p' tp q : factor_is p e r h v -> factor_is p e r (GetScat p' tp q :: h) v
  | FI_set h tp q v : (p < phases_of h)%nat -> means q e -> radiation_of tp r -> factor_is p e r (SetScat p tp q v :: h) v
  | FI_set_other h v p' tp q v' : p' <> p \/ ~ means q e \/ ~ radiation_of tp r \/ (phases_of h <= p)%nat -> factor_is p e r h v -> factor_is p e r (SetScat p' tp q v' :: h) v
  | FI_reset h q : means q e -> factor_is p e r (ResetScat p q :: h) (standard e r)
  | FI_reset_other h v p' q : p' <> p \/ ~ means q e -> factor_is p e r h v -> factor_is p e r (ResetScat p' q :: h) v.

(** ** phase fractions *)
(** sums over the atoms *)
Definition atom_sum (f : R * R * R -> R) (p : fphase) : R := fold_right (fun a s => f a + s) 0 (fp_atoms p).
(** amount of a phase per unit of its scale: the scattering is proportional to the
    square of the average factor <b> = sum occ b / np *)
Definition per_scale (k : norm_by) (p : fphase) : R :=
  let b := atom_sum (fun a => fst (fst a) * snd (fst a)) p / fp_np p in
  match k with
  | ByAtom => 1 / (b * b)
  | ByCell => 1 / (b * b * fp_np p)
  | ByMass => (atom_sum (fun a => fst (fst a) * snd a) p / fp_np p) / (b * b)
  end.
(** scatters: np and <b> are not zero *)
Definition scatters (p : fphase) : Prop := fp_np p <> 0 /\ atom_sum (fun a => fst (fst a) * snd (fst a)) p <> 0.
Definition all_scatter (sel : list (option fphase)) : Prop := Forall (fun o => match o with None => True | Some p => scatters p end) sel.
(** contributions for given scales s *)
Definition part (k : norm_by) (s : R) (o : option fphase) : R := match o with None => 0 | Some p => s * per_scale k p end.
Definition scale_of (o : option fphase) : R := match o with None => 0 | Some p => fp_pscale p end.
Definition dscale_of (o : option fphase) : R := match o with None => 0 | Some p => fp_dpscale p end.
Definition total (k : norm_by) (sel : list (option fphase)) (s : list R) : R := lsum (fun x => part k (fst x) (snd x)) (combine s sel).
(** the fraction of phase i as a function of all scales *)
Definition fraction_of (k : norm_by) (sel : list (option fphase)) (i : nat) (s : list R) : R := part k (nth i s 0) (nth i sel None) / total k sel s.
Definition set_at (s : list R) (j : nat) (x : R) : list R := firstn j s ++ x :: skipn (S j) s.
(** first-order error propagation: d holds the partial derivatives of the fraction
    with respect to the scales *)
Definition gradient (k : norm_by) (sel : list (option fphase)) (i : nat) (s : list R) (d : list R) : Prop :=
  length d = length sel /\
  forall j, (j < length sel)%nat -> derivable_pt_lim (fun x => fraction_of k sel i (set_at s j x)) (nth j s 0) (nth j d 0).
Definition propagated (d ds : list R) : R := sqrt (lsum (fun x => (fst x * snd x) * (fst x * snd x)) (combine d ds)).
(** a phase as it should be: scale not negative, occupancies not negative, masses
    positive *)
Definition sound_phase (p : fphase) : Prop :=
  0 <= fp_pscale p /\ 0 < fp_np p /\ Forall (fun a => 0 <= fst (fst a) /\ 0 < snd a) (fp_atoms p) /\ scatters p.
Definition sound_selection (sel : list (option fphase)) : Prop :=
  Forall (fun o => match o with None => True | Some p => sound_phase p end) sel.
(** some selected phase has a positive scale *)
Definition one_used (sel : list (option fphase)) : Prop := exists p, In (Some p) sel /\ 0 < fp_pscale p.
