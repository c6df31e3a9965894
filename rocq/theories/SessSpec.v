(** Specification vocabulary for the session. *)
From Coq Require Import List ZArith Reals Ascii Bool.
From Verif Require Import Base SessModel.
Import ListNotations.
Local Open Scope Z_scope.

Fixpoint zsum (l : list Z) : Z := match l with [] => 0 | x :: r => x + zsum r end.

(** counters, numbering 1..n in loading order, distinct live objects *)
Definition numbered (s : session) : Prop :=
  s_nphase s = Z.of_nat (length (s_phases s)) /\ s_nset s = Z.of_nat (length (s_sets s)) /\
  s_total s = zsum (map (fun p => Z.of_nat (length (ph_types p))) (s_phases s)) /\
  (forall k p, nth_error (s_phases s) k = Some p -> ph_iphase p = Z.of_nat k + 1) /\
  (forall k d, nth_error (s_sets s) k = Some d -> ds_iset d = Z.of_nat k + 1) /\
  NoDup (map ph_addr (s_phases s) ++ map ds_addr (s_sets s)).

(** one selection entry per phase, empty or that very phase *)
Definition sel_entries (s : session) (d : dset) : Prop :=
  length (ds_psel d) = length (s_phases s) /\
  forall k e, nth_error (ds_psel d) k = Some (Some e) -> exists p, nth_error (s_phases s) k = Some p /\ ph_addr p = e.

(** the current phase and data set are loaded ones, or none if there are none *)
Definition current_ok (s : session) : Prop :=
  match s_curphase s with
  | None => s_phases s = []
  | Some a => exists p, In p (s_phases s) /\ ph_addr p = a
  end /\
  match s_curset s with
  | None => s_sets s = []
  | Some a => exists d, In d (s_sets s) /\ ds_addr d = a
  end.

Definition consistent (s : session) : Prop :=
  numbered s /\ (forall d, In d (s_sets s) -> sel_entries s d) /\ current_ok s.

(** phase p is the current phase *)
Definition cur_phase (s : session) (p : phase) : Prop := In p (s_phases s) /\ s_curphase s = Some (ph_addr p).
Definition cur_set (s : session) (d : dset) : Prop := In d (s_sets s) /\ s_curset s = Some (ds_addr d).

(** phase number ip (1..n) *)
Definition phase_no (s : session) (ip : Z) (p : phase) : Prop :=
  1 <= ip /\ nth_error (s_phases s) (Z.to_nat (ip - 1)) = Some p.
Definition set_no (s : session) (is : Z) (d : dset) : Prop :=
  1 <= is /\ nth_error (s_sets s) (Z.to_nat (is - 1)) = Some d.

(** phase number ip is selected in data set d *)
Definition selected (d : dset) (ip : Z) : Prop :=
  1 <= ip /\ exists a, nth_error (ds_psel d) (Z.to_nat (ip - 1)) = Some (Some a).

(** atom a of phase p is ignored on a side in data set d *)
Definition ignored (d : dset) (p : phase) (side : ascii) (a : nat) : Prop :=
  In a ((if Ascii.eqb side "i" then ds_igni d else ds_ignj d) (ph_addr p)).

(** the call [o] made in state s names atom a of phase p on a side, for the data
    set d, and switches it on or off *)
Definition names (look : list ascii -> option tyid) (s : session) (o : op) (d : dset) (p : phase) (side : ascii) (a : nat) (on : bool) : Prop :=
  cur_set s d /\ (a < length (ph_types p))%nat /\ (side = "i" \/ side = "j")%char /\
  match o with
  | OSelType ip ij smb sel => phase_no s ip p /\ selected d ip /\ ij = side /\ on = sel /\
      exists t, look smb = Some t /\ nth_error (ph_types p) a = Some t
  | OSelIndex ip ij aidx1 sel => phase_no s ip p /\ selected d ip /\ ij = side /\ on = sel /\ aidx1 = Z.of_nat a + 1
  | OSelAll ip ij => phase_no s ip p /\ selected d ip /\ ij = side /\ on = true
  | OSelNone ip ij => phase_no s ip p /\ selected d ip /\ ij = side /\ on = false
  | _ => False
  end.

Definition is_sel_call (o : op) : option (Z * ascii) :=
  match o with
  | OSelType ip ij _ _ | OSelIndex ip ij _ _ | OSelAll ip ij | OSelNone ip ij => Some (ip, ij)
  | _ => None
  end.

(** ** histories *)
(** a history started from a fresh PdfFit object ends in s *)
Definition reachable (look : list ascii -> option tyid) (l : list op) (s : session) : Prop := run look l init = Ok s.

(** the call [o] in state s switches atom a of the phase with address pa, on a
    side, in the data set with address da *)
Definition names_at look (s : session) (o : op) (da pa : addr) (side : ascii) (a : nat) (on : bool) : Prop :=
  exists d p, In d (s_sets s) /\ ds_addr d = da /\ In p (s_phases s) /\ ph_addr p = pa /\ names look s o d p side a on.

(** whether the last naming call of a history switched the atom off;
    [st] is the status before *)
Fixpoint ends_off look (da pa : addr) (side : ascii) (a : nat) (l : list op) (s : session) (st : Prop) : Prop :=
  match l with
  | [] => st
  | o :: r => ends_off look da pa side a r (fst (step look o s))
                (names_at look s o da pa side a false \/ (st /\ ~ names_at look s o da pa side a true))
  end.

(** the data range of d covers the interval *)
Definition covers (d : dset) (a b : R) : Prop := (ds_rmin d <= a)%R /\ (b <= ds_rmax d)%R.
(** pdfrange(is, ...) names the data set number k *)
Definition range_names (is : Z) (k : nat) : Prop := is = -1 \/ is = Z.of_nat k + 1.
(** equal but for the fit range *)
Definition same_but_range (d d' : dset) : Prop :=
  d' = mkDs (ds_addr d) (ds_iset d) (ds_psel d) (ds_igni d) (ds_ignj d) (ds_rmin d) (ds_rmax d) (ds_rfmin d') (ds_rfmax d') (ds_bin d) (ds_obs d) (ds_wic d) (ds_val d).
Definition same_but_sets (s s' : session) : Prop :=
  s' = mkS (s_next s) (s_phases s) (s_nphase s) (s_total s) (s_curphase s) (s_sets s') (s_nset s) (s_curset s) (s_vec s) (s_sca s).

(** pdfrange is accepted *)
Definition accepts (s : session) (is : Z) (a b : R) : Prop :=
  (a < b)%R /\ ((is = -1 /\ forall d, In d (s_sets s) -> covers d a b) \/ exists d, set_no s is d /\ covers d a b).

(** ** variables *)
(** number of elements of an indexed variable, and the variable number k *)
Definition vsize (v : vname) (p : phase) : Z := match v with Vlat => 6 | Vatom _ => Z.of_nat (length (ph_types p)) end.
Definition vloc (v : vname) (k : nat) : loc := match v with Vlat => LLat k | Vatom c => LAtom k c end.
(** the phase variable, or data set variable, of a scalar name *)
Definition phase_var (v : sname) : option loc :=
  match v with
  | Spscale => Some LPscale | Sspdiameter => Some LSpdiameter | Sstepcut => Some LStepcut | Sdelta2 => Some LDelta2
  | Sdelta1 => Some LDelta1 | Ssratio => Some LSratio | Srcut => Some LRcut | _ => None
  end.
Definition set_var (v : sname) : option loc :=
  match v with Sdscale => Some LDscale | Sqdamp => Some LQdamp | Sqbroad => Some LQbroad | _ => None end.

(** s' is s with variable l of phase p set to x *)
Definition only_phase_var (s s' : session) (p : phase) (l : loc) (x : R) : Prop :=
  s' = mkS (s_next s) (s_phases s') (s_nphase s) (s_total s) (s_curphase s) (s_sets s) (s_nset s) (s_curset s) (s_vec s) (s_sca s) /\
  length (s_phases s') = length (s_phases s) /\
  forall k q q', nth_error (s_phases s) k = Some q -> nth_error (s_phases s') k = Some q' ->
    (q <> p -> q' = q) /\
    (q = p -> ph_addr q' = ph_addr q /\ ph_iphase q' = ph_iphase q /\ ph_types q' = ph_types q /\
              ph_val q' l = x /\ forall m, m <> l -> ph_val q' m = ph_val q m).
(** s' is s with variable l of data set d set to x *)
Definition only_set_var (s s' : session) (d : dset) (l : loc) (x : R) : Prop :=
  same_but_sets s s' /\ length (s_sets s') = length (s_sets s) /\
  forall k q q', nth_error (s_sets s) k = Some q -> nth_error (s_sets s') k = Some q' ->
    (q <> d -> q' = q) /\
    (q = d -> q' = mkDs (ds_addr q) (ds_iset q) (ds_psel q) (ds_igni q) (ds_ignj q) (ds_rmin q) (ds_rmax q) (ds_rfmin q) (ds_rfmax q) (ds_bin q) (ds_obs q) (ds_wic q) (ds_val q') /\
              ds_val q' l = x /\ forall m, m <> l -> ds_val q' m = ds_val q m).

Definition is_pdesel (o : op) : bool := match o with OPdesel _ => true | _ => false end.
Definition is_reset (o : op) : bool := match o with OReset => true | _ => false end.
Definition is_setvar (o : op) : bool := match o with OSetvar _ _ => true | _ => false end.

(** s' is s with the selection list of data set d replaced by sel *)
Definition only_selection (s s' : session) (d : dset) (sel : list (option addr)) : Prop :=
  same_but_sets s s' /\ length (s_sets s') = length (s_sets s) /\
  forall k e e', nth_error (s_sets s) k = Some e -> nth_error (s_sets s') k = Some e' ->
    (e <> d -> e' = e) /\
    (e = d -> e' = mkDs (ds_addr d) (ds_iset d) sel (ds_igni d) (ds_ignj d) (ds_rmin d) (ds_rmax d) (ds_rfmin d) (ds_rfmax d) (ds_bin d) (ds_obs d) (ds_wic d) (ds_val d)).
(** sel' is sel with entry number ip set to e *)
Definition one_entry (sel sel' : list (option addr)) (ip : Z) (e : option addr) : Prop :=
  length sel' = length sel /\ nth_error sel' (Z.to_nat (ip - 1)) = Some e /\
  forall j, j <> Z.to_nat (ip - 1) -> nth_error sel' j = nth_error sel j.
(** arguments alloc must accept *)
Definition alloc_args (qmax qdamp rmin rmax : R) (bin : Z) : Prop :=
  (0 <= rmin <= rmax)%R /\ 1 < bin /\ (0 <= qmax)%R /\ (0 <= qdamp)%R.
(** a new data set: its range is also the fit range, all atoms count *)
Definition fresh_set (d : dset) (rmin rmax : R) (obs wic : list R) : Prop :=
  ds_rmin d = rmin /\ ds_rmax d = rmax /\ ds_rfmin d = rmin /\ ds_rfmax d = rmax /\ ds_bin d = Z.of_nat (length obs) /\ ds_obs d = obs /\ ds_wic d = wic /\
  forall a, ds_igni d a = [] /\ ds_ignj d a = [].
