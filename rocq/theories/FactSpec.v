(** Specification vocabulary for the scattering factors used by the calculation. *)
From Coq Require Import Ascii List Arith Reals Bool.
From Verif Require Import Base RSum ParserModel MetricModel PdfModel ElementTable ScatModel ScatSpec PdfSpec FactModel.
Import ListNotations.
Local Open Scope R_scope.

(** ** histories *)
Definition known (s : text) : Prop := exists e, means s e.
(** calls, latest first: what they mean for the scattering factors (C40) and the
    symbols of the atoms of the phases.  A structure with an unknown symbol is not
    loaded. *)
Inductive history : list kcall -> list scat_op -> list (list text) -> Prop :=
  | H_start : history [] [] []
  | H_read h s ph syms : Forall known syms -> history h s ph -> history (KRead syms :: h) (NewPhase :: s) (ph ++ [syms])
  | H_unread h s ph syms : ~ Forall known syms -> history h s ph -> history (KRead syms :: h) s ph
  | H_clear h s ph : history h s ph -> history (KClear :: h) (ClearAll :: s) []
  | H_set h s ph p tp q v : history h s ph -> history (KSet p tp q v :: h) (SetScat p tp q v :: s) ph
  | H_reset h s ph p q : history h s ph -> history (KReset p q :: h) (ResetScat p q :: s) ph
  | H_get h s ph p tp q : history h s ph -> history (KGet p tp q :: h) (GetScat p tp q :: s) ph
  | H_none h s ph tp q : history h s ph -> history (KGetNone tp q :: h) s ph.
(** atom i of phase p was read with symbol s *)
Definition symbol_of (ph : list (list text)) (p i : nat) (s : text) : Prop :=
  exists syms, nth_error ph p = Some syms /\ nth_error syms i = Some s.

(** a call that gives no element of phase p another factor for radiation r *)
Definition unrelated (ph : list (list text)) (p : nat) (r : radiation) (c : kcall) : Prop :=
  match c with
  | KRead _ => True
  | KClear => False
  | KSet p' tp q _ => p' <> p \/ ~ radiation_of tp r \/ forall i s e, symbol_of ph p i s -> means s e -> ~ means q e
  | KReset p' q => p' <> p \/ forall i s e, symbol_of ph p i s -> means s e -> ~ means q e
  | KGet _ _ _ => True
  | KGetNone _ _ => True
  end.

(** ** the calculation *)
(** the atoms differ in nothing but the factors, which are c times as large *)
Definition rescaled (tp : ascii) (c : R) (a a' : catom) : Prop :=
  at_pos a' = at_pos a /\ at_u a' = at_u a /\ at_occ a' = at_occ a /\ at_sf a' tp = c * at_sf a tp.
Definition same_but_factors (tp : ascii) (x y : option centry) : Prop :=
  match x, y with
  | None, None => True
  | Some e, Some e' =>
      exists atoms c, c <> 0 /\ Forall2 (rescaled tp c) (cp_atoms (en_ph e)) atoms /\
      let p := en_ph e in
      e' = mkEnt (mkCp (cp_a0 p) (cp_win p) (cp_icc p) atoms (cp_delta2 p) (cp_delta1 p) (cp_pscale p) (cp_spd p) (cp_stepcut p) (cp_sratio p) (cp_rcut p))
             (en_der e) (en_igni e) (en_ignj e)
  | _, _ => False
  end.
(** the factors of the phase are the X-ray factors of elements; its occupancies are
    not negative and not all zero *)
Definition xray_phase (d : cdata) (p : cphase) : Prop :=
  (forall i, (i < natoms p)%nat -> exists e, In e elements /\ at_sf (atom_no p i) (cd_type d) = standard e XRay) /\
  (forall i, (i < natoms p)%nat -> 0 <= at_occ (atom_no p i)) /\ exists i, (i < natoms p)%nat /\ 0 < at_occ (atom_no p i).
(** the average factor of the phase is zero *)
Definition null_average (d : cdata) (p : cphase) : Prop :=
  (1 <= natoms p)%nat /\ rsum (natoms p) (fun i => at_occ (atom_no p i) * at_sf (atom_no p i) (cd_type d)) = 0.

(** the phases in psel have the factors of the atoms of the phases of w *)
Definition has_factors (w : kworld) (tp : ascii) (psel : list (option centry)) : Prop :=
  forall p e, nth_error psel p = Some (Some e) ->
  (exists k, nth_error (kw_ph w) p = Some k /\ length (kp_types k) = natoms (en_ph e)) /\
  forall i, (i < natoms (en_ph e))%nat -> atom_factor w p i tp = Ok (at_sf (atom_no (en_ph e) i) tp).
(** the atoms differ in nothing but the factors *)
Definition same_place (a a' : catom) : Prop := at_pos a' = at_pos a /\ at_u a' = at_u a /\ at_occ a' = at_occ a.
Definition same_structure (x y : option centry) : Prop :=
  match x, y with
  | None, None => True
  | Some e, Some e' =>
      let p := en_ph e in
      exists atoms, Forall2 same_place (cp_atoms p) atoms /\
      e' = mkEnt (mkCp (cp_a0 p) (cp_win p) (cp_icc p) atoms (cp_delta2 p) (cp_delta1 p) (cp_pscale p) (cp_spd p) (cp_stepcut p) (cp_sratio p) (cp_rcut p))
             (en_der e) (en_igni e) (en_ignj e)
  | _, _ => False
  end.
