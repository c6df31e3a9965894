(** Properties of references to variables in Python (C64). *)
From Coq Require Import Ascii String.
From Coq Require Import List ZArith Reals Bool Lia.
From Verif Require Import Base ParserModel DataSpec SessModel SessSpec SessEx PyModel PySpec PyText PyProof PyRef PyPar PyFun PyEx.
From Verif Require BindModel ParamModel ConModel.
Import ListNotations.
Local Open Scope Z_scope.

(** a text that denotes an existing variable of the current phase or data set:
    getvar returns its value and changes nothing, setvar sets it and nothing else *)
Theorem C64_variable : forall look h s t d a l, reachable look h s -> denotes t d -> lives s d a l -> (forall v p, cur_phase s p -> vsize v p < 2^31) ->
  exists y, value_at s a l y /\ PyModel.getvar (AText t) s = (s, RVal y) /\
  forall x, exists s', PyModel.setvar (AText t) x s = (s', RVal tt) /\ only_place s s' a l x.
Proof. exact text_use. Qed.
Print Assumptions C64_variable.

Example C64_variable_example : reachable ex_look ex_ops ex_s /\ denotes (chars " u11( +0_2 ))") (inl (Vatom Au11, 2)) /\
  lives ex_s (inl (Vatom Au11, 2)) 0%nat (LAtom 1 Au11) /\ denotes (chars "qdamp") (inr (chars "qdamp")) /\ lives ex_s (inr (chars "qdamp")) 1%nat LQdamp /\
  forall v p, cur_phase ex_s p -> vsize v p < 2^31.
Proof. exact (conj ex_reach (conj ex_denotes (conj ex_lives (conj (proj1 ex_lives_set) (conj (proj2 ex_lives_set) ex_size))))). Qed.

(** indices that do not exist *)
Theorem C64_index : forall look h s t v i p, reachable look h s -> denotes t (inl (v, i)) -> cur_phase s p -> vsize v p < 2^31 -> i < 1 \/ vsize v p < i ->
  exists e, PyModel.getvar (AText t) s = (s, RExc e) /\ (forall x, PyModel.setvar (AText t) x s = (s, RExc e)) /\
    (forall enc q fc c, PyModel.constrain enc (AText t) q fc s c = (s, c, RExc e)) /\
    (-2^31 <= i < 2^31 -> 0 < vsize v p -> e = XEng BindModel.XValue) /\ (-2^31 <= i < 2^31 -> vsize v p = 0 -> e = XEng BindModel.XUnassigned) /\
    (~ -2^31 <= i < 2^31 -> e = XOverflow).
Proof. exact index_errors. Qed.
Print Assumptions C64_index.

Example C64_index_example : denotes (vec_text Vlat 7) (inl (Vlat, 7)) /\ cur_phase ex_s (p0 ex_s) /\ vsize Vlat (p0 ex_s) < 7.
Proof. exact (conj (denotes_vec Vlat 7) (conj ex_cur eq_refl)). Qed.

(** nothing loaded *)
Theorem C64_unassigned : forall look h s t d, reachable look h s -> Forall (fun o => is_reset o = false) h -> denotes t d ->
  match d with inl _ => s_phases s = [] | inr n => (In n (map fst of_phase) /\ s_phases s = []) \/ (In n (map fst of_set) /\ s_sets s = []) end ->
  (match d with inl (v, i) => -2^31 <= i < 2^31 | inr _ => True end) ->
  PyModel.getvar (AText t) s = (s, RExc (XEng BindModel.XUnassigned)) /\ forall x, PyModel.setvar (AText t) x s = (s, RExc (XEng BindModel.XUnassigned)).
Proof. exact text_unassigned. Qed.
Print Assumptions C64_unassigned.

Example C64_unassigned_example : reachable ex_look [] init /\ denotes (vec_text (Vatom Ax) 1) (inl (Vatom Ax, 1)) /\ s_phases init = [] /\
  denotes (sca_name Sdscale) (inr (sca_name Sdscale)) /\ In (sca_name Sdscale) (map fst of_set) /\ s_sets init = [].
Proof. exact (conj eq_refl (conj (denotes_vec (Vatom Ax) 1) (conj eq_refl (conj (denotes_sca Sdscale) (conj (or_introl eq_refl) eq_refl))))). Qed.

(** only texts that denote a variable give a value or set one *)
Theorem C64_only : forall look h s t, reachable look h s -> (forall v p, cur_phase s p -> vsize v p < 2^31) ->
  (s_phases s = [] \/ s_sets s = [] -> Forall (fun o => is_reset o = false) h) ->
  (forall s' y, PyModel.getvar (AText t) s = (s', RVal y) -> s' = s /\ exists d a l, denotes t d /\ lives s d a l /\ value_at s a l y) /\
  (forall s' x, PyModel.setvar (AText t) x s = (s', RVal tt) -> exists d a l, denotes t d /\ lives s d a l /\ only_place s s' a l x).
Proof. exact only_denoting. Qed.
Print Assumptions C64_only.

Example C64_only_example : reachable ex_look ex_ops ex_s /\ (forall v p, cur_phase ex_s p -> vsize v p < 2^31) /\ s_phases ex_s <> [] /\ s_sets ex_s <> [] /\
  exists s' y, PyModel.getvar (AText (chars " u11( +0_2 ))")) ex_s = (s', RVal y).
Proof. exact ex_only. Qed.

(** a call that returns no value changes nothing, unless the text begins with the
    name of a function that does *)
Theorem C64_no_change : forall t s,
  (fst (PyModel.getvar (AText t) s) = s \/ exists n, In n acting /\ begins_with n t) /\
  (forall x, fst (PyModel.setvar (AText t) x s) = s \/ snd (PyModel.setvar (AText t) x s) = RVal tt \/ exists n, In n acting /\ begins_with n t).
Proof. intros t s. exact (conj (getvar_state t s) (fun x => setvar_state t x s)). Qed.
Print Assumptions C64_no_change.

(** a text without the name of a function or variable is refused with AttributeError,
    and no other text is *)
Theorem C64_attribute_error : forall t s,
  (PyModel.getvar (AText t) s = (s, RExc XAttribute) <-> ~ exists name o, In name known /\ shaped name t o) /\
  (forall x, PyModel.setvar (AText t) x s = (s, RExc XAttribute) <-> ~ exists name o, In name known /\ shaped name t o) /\
  (snd (PyModel.getvar (AText t) s) = RExc XAttribute -> fst (PyModel.getvar (AText t) s) = s).
Proof. exact attribute_iff. Qed.
Print Assumptions C64_attribute_error.

Example C64_attribute_example : (~ exists name o, In name known /\ shaped name (chars "Lat(1)") o) /\
  (exists name o, In name known /\ shaped name (vec_text Vlat 1) o).
Proof. exact (conj ex_unknown ex_known). Qed.

(** an indexed variable without index, a single one with an index *)
Theorem C64_arity : forall t s name o, shaped name t o -> match o with None => In name (map fst indexed) | Some _ => In name (map fst of_phase ++ map fst of_set) end ->
  PyModel.getvar (AText t) s = (s, RExc XType) /\ forall x, PyModel.setvar (AText t) x s = (s, RExc XType).
Proof. exact arity. Qed.
Print Assumptions C64_arity.

Example C64_arity_example : shaped (chars "lat") (chars " lat") None /\ In (chars "lat") (map fst indexed) /\
  shaped (chars "rcut") (chars "rcut(1)") (Some 1) /\ In (chars "rcut") (map fst of_phase ++ map fst of_set).
Proof. exact ex_arity. Qed.

(** the texts the methods x(i), ..., lat("alpha"), qdamp() make denote that variable *)
Theorem C64_builders :
  (forall v i, denotes (vec_text v i) (inl (v, i))) /\ (forall v, denotes (sca_name v) (inr (sca_name v)) /\
    ((exists l, In (sca_name v, l) of_phase /\ phase_var v = Some l) \/ (exists l, In (sca_name v, l) of_set /\ set_var v = Some l))) /\
  (forall v s x, PyModel.getvar (ASca v) s = PyModel.getvar (AText (sca_name v)) s /\ PyModel.setvar (ASca v) x s = PyModel.setvar (AText (sca_name v)) x s) /\
  (forall n k, In (n, k) lattice_numbers -> exists t, lat_text n = RVal t /\ denotes t (inl (Vlat, k))) /\
  (forall n, ~ In n (map fst lattice_numbers) -> lat_text n = RExc XKey).
Proof. exact builders. Qed.
Print Assumptions C64_builders.

(** setpar with a number, with a text that is one, and with a variable *)
Theorem C64_setpar_number : forall par x s t b1 n b2,
  PyModel.setpar par (ANum x) s t = (s, ParamModel.setpar t par (Some x), RVal tt) /\
  (blanks b1 -> numeral_ok n -> blanks b2 -> PyModel.setpar par (AText (b1 ++ print_numeral n ++ b2)) s t = (s, ParamModel.setpar t par (Some (numeral_value n)), RVal tt)).
Proof. exact setpar_number. Qed.
Print Assumptions C64_setpar_number.

Theorem C64_setpar_variable : forall look h s u d par t, reachable look h s -> denotes u d ->
  (forall a l, lives s d a l -> (forall v p, cur_phase s p -> vsize v p < 2^31) ->
     exists y, value_at s a l y /\ PyModel.setpar par (AText u) s t = (s, ParamModel.setpar t par (Some y), RVal tt)) /\
  (forall e, snd (PyModel.getvar (AText u) s) = RExc e -> PyModel.setpar par (AText u) s t = (s, t, RExc e)).
Proof. exact setpar_variable. Qed.
Print Assumptions C64_setpar_variable.

Example C64_setpar_example : numeral_ok (mkNum (Some true) [1]%nat (Some [2; 5]%nat) None) /\ print_numeral (mkNum (Some true) [1]%nat (Some [2; 5]%nat) None) = chars "-1.25" /\
  snd (PyModel.getvar (AText (vec_text (Vatom Ax) 1)) init) = RExc (XEng BindModel.XUnassigned).
Proof. exact ex_setpar. Qed.

(** inf and nan in any case of the letters are numbers too *)
Theorem C64_setpar_not_finite : forall par s t b1 sgn W w b2, blanks b1 -> In W not_finite -> letters_of W w -> blanks b2 ->
  PyModel.setpar par (AText (b1 ++ print_sign sgn ++ w ++ b2)) s t = (s, ParamModel.setpar t par None, RVal tt).
Proof. exact setpar_special. Qed.
Print Assumptions C64_setpar_not_finite.

Example C64_not_finite_example : In (chars "NAN") not_finite /\ letters_of (chars "NAN") (chars "NaN").
Proof. exact ex_not_finite. Qed.

(** fixpar (b false), freepar (b true), psel and pdesel: a number, or the name ALL, which
    is the number -1 of the engine *)
Theorem C64_all : forall (n : pyidx) k b (tab : ptab) s,
  (match n with IInt j => -2^31 <= j < 2^31 /\ k = j | IText t => letters_of (chars "ALL") t /\ k = -1 end ->
     (exists r, ParamModel.setflag b tab k = (fst (PyModel.setflag b n tab), r) /\ snd (PyModel.setflag b n tab) = from_ext (BindModel.catching BindModel.c_unassigned r)) /\
     (exists r, SessModel.psel k s = (fst (PyModel.psel n s), r) /\ snd (PyModel.psel n s) = from_ext (BindModel.catching BindModel.c_unassigned r)) /\
     (exists r, SessModel.pdesel k s = (fst (PyModel.pdesel n s), r) /\ snd (PyModel.pdesel n s) = from_ext (BindModel.catching BindModel.c_unassigned r))) /\
  (match n with IInt j => ~ -2^31 <= j < 2^31 | IText t => ~ letters_of (chars "ALL") t end ->
     let e := match n with IInt _ => XOverflow | IText _ => XType end in
     PyModel.setflag b n tab = (tab, RExc e) /\ PyModel.psel n s = (s, RExc e) /\ PyModel.pdesel n s = (s, RExc e)).
Proof. exact index_calls. Qed.
Print Assumptions C64_all.

Example C64_all_example : letters_of (chars "ALL") (chars "aLl") /\ ~ letters_of (chars "ALL") (chars "ALLE").
Proof. exact ex_all. Qed.

(** constrain with a formula or a parameter number; the engine gets the place the text denotes *)
Theorem C64_constrain : forall look h s t d a l enc c, reachable look h s -> denotes t d -> lives s d a l -> (forall v p, cur_phase s p -> vsize v p < 2^31) ->
  l <> LStepcut -> l <> LRcut ->
  (forall f fc, fc = None \/ fc = Some [] -> PyModel.constrain enc (AText t) (PForm f) fc s c = (s, ConModel.constrain c (enc (a, l)) f (-1) ConModel.USER, RVal tt)) /\
  (forall n w fc ty, fc = None /\ w = [] \/ fc = Some w -> In (w, ty) con_types -> -2^31 <= n < 2^31 ->
     PyModel.constrain enc (AText t) (PInt n) fc s c = (s, ConModel.constrain c (enc (a, l)) [] n ty, RVal tt)).
Proof. exact constrain_calls. Qed.
Print Assumptions C64_constrain.

(** and what it refuses, with nothing changed *)
Theorem C64_constrain_refused : forall look h s t d a l enc c, reachable look h s -> denotes t d -> lives s d a l -> (forall v p, cur_phase s p -> vsize v p < 2^31) ->
  (forall p w fc ty, l = LStepcut \/ l = LRcut -> match p with PForm _ => fc = None \/ fc = Some [] | PInt n => -2^31 <= n < 2^31 /\ (fc = None /\ w = [] \/ fc = Some w) /\ In (w, ty) con_types end ->
     PyModel.constrain enc (AText t) p fc s c = (s, c, RExc (XEng BindModel.XConstraint))) /\
  (forall n w fc ty, fc = None /\ w = [] \/ fc = Some w -> In (w, ty) con_types -> ~ -2^31 <= n < 2^31 ->
     PyModel.constrain enc (AText t) (PInt n) fc s c = (s, c, RExc XOverflow)) /\
  (forall p w, w <> [] -> (forall ty, ~ In (w, ty) con_types) -> PyModel.constrain enc (AText t) p (Some w) s c = (s, c, RExc XKey)) /\
  (forall f w ty, w <> [] -> In (w, ty) con_types -> PyModel.constrain enc (AText t) (PForm f) (Some w) s c = (s, c, RExc XType)).
Proof. exact constrain_refused. Qed.
Print Assumptions C64_constrain_refused.

Theorem C64_constrain_unassigned : forall look h s t d, reachable look h s -> Forall (fun o => is_reset o = false) h -> denotes t d ->
  match d with inl _ => s_phases s = [] | inr n => (In n (map fst of_phase) /\ s_phases s = []) \/ (In n (map fst of_set) /\ s_sets s = []) end ->
  (match d with inl (v, i) => -2^31 <= i < 2^31 | inr n => n <> chars "stepcut" /\ n <> chars "rcut" end) ->
  forall enc c n, -2^31 <= n < 2^31 -> PyModel.constrain enc (AText t) (PInt n) None s c = (s, c, RExc (XEng BindModel.XUnassigned)).
Proof. exact constrain_unassigned. Qed.
Print Assumptions C64_constrain_unassigned.

Example C64_constrain_example : lives ex_s (inl (Vatom Au11, 2)) 0%nat (LAtom 1 Au11) /\ LAtom 1 Au11 <> LStepcut /\ LAtom 1 Au11 <> LRcut /\
  In (chars "FSQR", ConModel.FSQR) con_types /\ (forall ty, ~ In (chars "fsqr", ty) con_types) /\
  denotes (sca_name Srcut) (inr (sca_name Srcut)) /\ lives ex_s (inr (sca_name Srcut)) 0%nat LRcut.
Proof. exact ex_constrain. Qed.

(** a text that names a function of the module: it gives no value, and is refused with
    TypeError exactly when the function cannot be called with the arguments in the text *)
Theorem C64_functions : forall t s name o, shaped name t o -> In name functions -> (forall i, o = Some i -> -2^31 <= i < 2^31) ->
  (~ In name (match o with None => alone | Some _ => with_number end) ->
     PyModel.getvar (AText t) s = (s, RExc XType) /\ forall x, PyModel.setvar (AText t) x s = (s, RExc XType)) /\
  (In name (match o with None => alone | Some _ => with_number end) ->
     snd (PyModel.getvar (AText t) s) <> RExc XType /\ (forall y, snd (PyModel.getvar (AText t) s) <> RVal y) /\
     forall x, snd (PyModel.setvar (AText t) x s) <> RExc XType /\ snd (PyModel.setvar (AText t) x s) <> RVal tt).
Proof. exact function_texts. Qed.
Print Assumptions C64_functions.

Example C64_functions_example : shaped (chars "getR") (chars " getR") None /\ In (chars "getR") functions /\ In (chars "getR") alone /\
  shaped (chars "alloc") (chars "alloc(3)") (Some 3) /\ In (chars "alloc") functions /\ ~ In (chars "alloc") with_number.
Proof. exact ex_functions. Qed.

(** a text that names a function of the module is not refused: the function is called,
    and what it returns is used as a variable *)
Theorem C64_reset_refuted : exists look h s, reachable look h s /\ s_phases s <> [] /\ s_sets s <> [] /\
  PyModel.getvar (AText (chars "reset")) s = (reset s, RUndef) /\ s_phases (reset s) = [] /\ s_sets (reset s) = [].
Proof. exact reset_word. Qed.
Print Assumptions C64_reset_refuted.

(** a blank after the closing bracket is not accepted, one in front is *)
Theorem C64_blank_refuted : exists look h s y, reachable look h s /\ PyModel.getvar (AText (chars "lat(1)")) s = (s, RVal y) /\
  PyModel.getvar (AText (chars " lat(1)")) s = (s, RVal y) /\ PyModel.getvar (AText (chars "lat(1) ")) s = (s, RExc XAttribute).
Proof. exact blank_refuted. Qed.
Print Assumptions C64_blank_refuted.
