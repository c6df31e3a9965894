(** C19, C20, C21, C22, C25, C48: the session. *)
From Coq Require Import List ZArith Reals Ascii Bool Lra.
From Verif Require Import Base SessModel SessSpec SessProof SessProof2 SessProof3 SessEx.
Import ListNotations.
Local Open Scope Z_scope.

(** after every history the bookkeeping is consistent *)
Theorem C19_consistent : forall look l s, run look l init = Ok s -> consistent s.
Proof. exact session_consistent. Qed.
Print Assumptions C19_consistent.

(** a structure that is read becomes the last and current phase and is selected
    in every data set; other selections stay *)
Theorem C19_new_phase_selected : forall look l s c, reachable look l s ->
  exists s' p, step look (OReadStruct (inr c)) s = (s', Ok tt) /\
    s_phases s' = s_phases s ++ [p] /\ ph_types p = st_types c /\ ph_val p = st_val c /\ cur_phase s' p /\
    map ds_psel (s_sets s') = map (fun d => ds_psel d ++ [Some (ph_addr p)]) (s_sets s) /\
    s_curset s' = s_curset s.
Proof. intros look l s c R. exact (read_struct_new c s (reach_inv look l s R)). Qed.
Print Assumptions C19_new_phase_selected.

(** data that are read become the last and current data set, which selects all phases *)
Theorem C19_new_data_selects_all : forall look l s c, reachable look l s ->
  exists s' d, step look (OReadData (inr c)) s = (s', Ok tt) /\
    s_sets s' = s_sets s ++ [d] /\ s_phases s' = s_phases s /\ cur_set s' d /\
    ds_psel d = map (fun p => Some (ph_addr p)) (s_phases s) /\ s_curphase s' = s_curphase s /\ ds_obs d = dc_obs c.
Proof. intros look l s c R. exact (read_data_new c s (reach_inv look l s R)). Qed.
Print Assumptions C19_new_data_selects_all.

Theorem C19_alloc_selects_all : forall look l s qmax qdamp rmin rmax bin, reachable look l s ->
  (0 <= rmin <= rmax)%R -> 1 < bin -> (0 <= qmax)%R -> (0 <= qdamp)%R ->
  exists s' d, step look (OAlloc qmax qdamp rmin rmax bin) s = (s', Ok tt) /\
    s_sets s' = s_sets s ++ [d] /\ s_phases s' = s_phases s /\ cur_set s' d /\
    ds_psel d = map (fun p => Some (ph_addr p)) (s_phases s) /\ s_curphase s' = s_curphase s /\ ds_rmin d = rmin /\ ds_rmax d = rmax.
Proof. intros look l s qmax qdamp rmin rmax bin R. exact (alloc_new qmax qdamp rmin rmax bin s (reach_inv look l s R)). Qed.
Print Assumptions C19_alloc_selects_all.

(** psel and pdesel change one entry (or all) of the selection of the current data set
    and nothing else; a missing phase is rejected *)
Theorem C19_selection_effect : forall look l s d, reachable look l s -> cur_set s d ->
  (forall ip p, phase_no s ip p -> exists s' sel, step look (OPsel ip) s = (s', Ok tt) /\ only_selection s s' d sel /\ one_entry (ds_psel d) sel ip (Some (ph_addr p))) /\
  (forall ip p, phase_no s ip p -> exists s' sel, step look (OPdesel ip) s = (s', Ok tt) /\ only_selection s s' d sel /\ one_entry (ds_psel d) sel ip None) /\
  (exists s', step look (OPsel (-1)) s = (s', Ok tt) /\ only_selection s s' d (map (fun p => Some (ph_addr p)) (s_phases s))) /\
  (exists s', step look (OPdesel (-1)) s = (s', Ok tt) /\ only_selection s s' d (map (fun _ => None) (s_phases s))) /\
  (forall ip, ip <> (-1) -> (forall p, ~ phase_no s ip p) -> step look (OPsel ip) s = (s, Err ErrUnassigned) /\ step look (OPdesel ip) s = (s, Err ErrUnassigned)).
Proof. intros look l s d R. exact (psel_effect s d (reach_inv look l s R)). Qed.
Print Assumptions C19_selection_effect.

(** setphase and setdata make the numbered object current; a missing one is rejected *)
Theorem C19_current_effect : forall look l s ip, reachable look l s ->
  (forall p, phase_no s ip p -> exists s', step look (OSetphase ip) s = (s', Ok tt) /\ cur_phase s' p /\ s_phases s' = s_phases s /\ s_sets s' = s_sets s /\ s_curset s' = s_curset s) /\
  ((forall p, ~ phase_no s ip p) -> step look (OSetphase ip) s = (s, Err ErrUnassigned)) /\
  (forall d, set_no s ip d -> exists s', step look (OSetdata ip) s = (s', Ok tt) /\ cur_set s' d /\ s_phases s' = s_phases s /\ s_sets s' = s_sets s /\ s_curphase s' = s_curphase s) /\
  ((forall d, ~ set_no s ip d) -> step look (OSetdata ip) s = (s, Err ErrUnassigned)).
Proof. intros look l s ip R. exact (setphase_effect s ip (reach_inv look l s R)). Qed.
Print Assumptions C19_current_effect.

(** the phase that getphase (hence get_atoms) means: the numbered one, or the current
    one for 0; any other number is refused *)
Theorem C19_getphase : forall look l s ip, reachable look l s -> match getphase ip s with
  | Ok a => (ip = 0 /\ s_curphase s = Some a) \/ exists p, phase_no s ip p /\ a = ph_addr p
  | Err e => e = ErrUnassigned /\ ((ip = 0 /\ s_curphase s = None) \/ (ip <> 0 /\ forall p, ~ phase_no s ip p))
  | _ => False end.
Proof. exact getphase_is. Qed.
Print Assumptions C19_getphase.

Example C19_example : exists s, run ex_look ex_ops init = Ok s /\ length (s_phases s) = 2%nat /\ length (s_sets s) = 2%nat.
Proof. destruct ex_run as (s & R & L1 & L2 & _). exists s. exact (conj R (conj L1 L2)). Qed.

(** a rejected call changes nothing, pdfrange for all data sets excepted *)
Theorem C20_rejected_unchanged : forall look l s o s' e, reachable look l s ->
  step look o s = (s', Err e) -> (forall a b, o <> ORange (-1) a b) -> s' = s.
Proof. intros look l s o s' e R. exact (step_rejected look o s s' e (reach_inv look l s R)). Qed.
Print Assumptions C20_rejected_unchanged.

(** ... for which it is false *)
Theorem C20_range_all_refuted : exists look l s s' e, reachable look l s /\
  step look (ORange (-1) 0 8) s = (s', Err e) /\ s' <> s.
Proof. destruct range_all_changes as (s & s' & e & R & S & N & _). exists ex_look, ex_ops, s, s', e. exact (conj R (conj S N)). Qed.
Print Assumptions C20_range_all_refuted.

Theorem C20_alloc_rejects : forall look s qmax qdamp rmin rmax bin, ~ alloc_args qmax qdamp rmin rmax bin ->
  step look (OAlloc qmax qdamp rmin rmax bin) s = (s, Err ErrValue).
Proof. exact (fun _ s qmax qdamp rmin rmax bin => alloc_rejects qmax qdamp rmin rmax bin s). Qed.
Print Assumptions C20_alloc_rejects.

Example C20_alloc_example : ~ alloc_args 20 0 5 4 100 /\ alloc_args 20 0 4 5 100.
Proof. unfold alloc_args. split; [intros (H & _); lra|repeat split; lra]. Qed.

Example C20_example : exists s e, reachable ex_look ex_ops s /\ step ex_look (OSetphase 3) s = (s, Err e).
Proof. exact ex_rejected. Qed.

(** an atom is ignored exactly when the last selection call of the history that
    named it, on that side, in that data set, switched it off *)
Theorem C21_last_call_decides : forall look l s d p side a, reachable look l s ->
  In d (s_sets s) -> In p (s_phases s) -> (side = "i" \/ side = "j")%char -> (a < length (ph_types p))%nat ->
  (ignored d p side a <-> ends_off look (ds_addr d) (ph_addr p) side a l init False).
Proof. exact last_call_decides. Qed.
Print Assumptions C21_last_call_decides.

(** one call: named atoms get the new status, all others keep theirs, on both
    sides, in all phases and data sets *)
Theorem C21_one_call : forall look l s o d p side a, reachable look l s ->
  In d (s_sets s) -> In p (s_phases s) -> (side = "i" \/ side = "j")%char -> (a < length (ph_types p))%nat ->
  forall d', In d' (s_sets (fst (step look o s))) -> ds_addr d' = ds_addr d ->
  (forall on, names look s o d p side a on -> (ignored d' p side a <-> on = false)) /\
  ((forall on, ~ names look s o d p side a on) -> (ignored d' p side a <-> ignored d p side a)).
Proof. exact one_selection_call. Qed.
Print Assumptions C21_one_call.

(** NI switched off by type and the first NI on again: the second stays off *)
Example C21_example : exists s d p, reachable ex_look ex_ops s /\ In d (s_sets s) /\ In p (s_phases s) /\
  ignored d p "i" 2 /\ ~ ignored d p "i" 0 /\ ~ ignored d p "j" 2 /\ ~ ignored d p "i" 1.
Proof. exact ex_ignored. Qed.

(** a call in a reachable state is undefined only for a selection call that names a phase
    deselected in the current data set, or a variable used after everything was deleted *)
Theorem C22_only_deselected : forall look l s o s', reachable look l s -> step look o s = (s', UB) ->
  (exists ip ij d, is_sel_call o = Some (ip, ij) /\ cur_set s d /\ 1 <= ip <= Z.of_nat (length (s_phases s)) /\ ~ selected d ip) \/
  (is_setvar o = true /\ (s_phases s = [] \/ s_sets s = [])).
Proof. intros look l s o s' R. exact (step_ub look o s s' (reach_inv look l s R)). Qed.
Print Assumptions C22_only_deselected.

(** histories without pdesel are defined, as long as no variable is set after reset *)
Theorem C22_no_pdesel_safe : forall look l, Forall (fun o => is_pdesel o = false) l ->
  Forall (fun o => is_reset o = false) l \/ Forall (fun o => is_setvar o = false) l ->
  exists t, run look l init = Ok t.
Proof. exact no_deselect_safe. Qed.
Print Assumptions C22_no_pdesel_safe.

(** after pdesel the call is undefined *)
Theorem C22_deselected_refuted : exists look l s d, reachable look l s /\ cur_set s d /\
  1 <= 1 <= Z.of_nat (length (s_phases s)) /\ snd (step look (OSelAll 1 "i") s) = UB.
Proof. destruct deselected_ub as (s & d & R & C & L & U & _). exists ex_look, (ex_ops ++ [OPdesel 1]), s, d. exact (conj R (conj C (conj L U))). Qed.
Print Assumptions C22_deselected_refuted.

Example C22_example : Forall (fun o => is_pdesel o = false) ex_ops /\ Forall (fun o => is_reset o = false) ex_ops.
Proof. split; repeat constructor. Qed.

(** pdfrange is accepted exactly for rmin < rmax within the data range of the named
    data sets; then exactly these get the range and nothing else changes *)
Theorem C25_range : forall look l s is a b, reachable look l s ->
  (accepts s is a b -> exists s', step look (ORange is a b) s = (s', Ok tt) /\ same_but_sets s s' /\ length (s_sets s') = length (s_sets s) /\
     forall k d d', nth_error (s_sets s) k = Some d -> nth_error (s_sets s') k = Some d' ->
       (range_names is k -> same_but_range d d' /\ ds_rfmin d' = a /\ ds_rfmax d' = b) /\ (~ range_names is k -> d' = d)) /\
  (~ accepts s is a b -> snd (step look (ORange is a b) s) = Err ErrValue).
Proof. intros look l s is a b R. exact (range_spec is a b s (reach_inv look l s R)). Qed.
Print Assumptions C25_range.

Example C25_example : exists s, reachable ex_look ex_ops s /\ accepts s 1 2 8 /\ ~ accepts s 2 2 8 /\ accepts s (-1) 2 4.
Proof.
  destruct ex_run as (s & R & _ & _ & _ & _ & _ & _ & _ & M1 & M2 & _). exists s. split; [exact R|].
  destruct (two_of _ _ _ _ M1) as (d1 & d2 & E & X1 & X2). rewrite E in M2. cbn in M2. injection M2 as Y1 Y2.
  split; [|split].
  - split; [lra|]. right. exists d1. split. split; [discriminate|]. rewrite E. reflexivity. split; lra.
  - intros [_ [[H _]|(d & [_ H] & C1 & C2)]]. discriminate. rewrite E in H. cbn in H. injection H as H. subst d. lra.
  - split; [lra|]. left. split; [reflexivity|]. rewrite E. intros d [<-|[<-|[]]]; split; lra.
Qed.

(** an indexed variable with a current phase: element i for 1 <= i <= n, which can be
    read and set without changing anything else; otherwise an error *)
Theorem C48_indexed : forall look l s p v i, reachable look l s -> cur_phase s p -> vsize v p < 2^31 -> -2^31 <= i < 2^31 ->
  (1 <= i <= vsize v p -> exists h, get_ref v i s = Ok h /\ getvar h s = Ok (ph_val p (vloc v (Z.to_nat (i - 1)))) /\
     forall x, exists s', setvar h x s = (s', Ok tt) /\ only_phase_var s s' p (vloc v (Z.to_nat (i - 1))) x) /\
  (i < 1 \/ vsize v p < i -> get_ref v i s = Err (if vsize v p =? 0 then ErrUnassigned else ErrValue)).
Proof. exact indexed_var. Qed.
Print Assumptions C48_indexed.

Theorem C48_phase_variable : forall look l s p v lo, reachable look l s -> cur_phase s p -> phase_var v = Some lo ->
  getvar (HSca v) s = Ok (ph_val p lo) /\ forall x, exists s', setvar (HSca v) x s = (s', Ok tt) /\ only_phase_var s s' p lo x.
Proof. exact scalar_phase_var. Qed.
Print Assumptions C48_phase_variable.

Theorem C48_data_variable : forall look l s d v lo, reachable look l s -> cur_set s d -> set_var v = Some lo ->
  getvar (HSca v) s = Ok (ds_val d lo) /\ forall x, exists s', setvar (HSca v) x s = (s', Ok tt) /\ only_set_var s s' d lo x.
Proof. exact scalar_set_var. Qed.
Print Assumptions C48_data_variable.

(** a new data set: scale 1, no broadening, the given damping; the points that were read,
    or zeros with weight 1 *)
Theorem C48_new_data : forall look l s, reachable look l s ->
  (forall c, exists s' d, step look (OReadData (inr c)) s = (s', Ok tt) /\ s_sets s' = s_sets s ++ [d] /\ cur_set s' d /\
     fresh_set d (dc_rmin c) (dc_rmax c) (dc_obs c) (dc_wic c) /\
     getvar (HSca Sdscale) s' = Ok 1%R /\ getvar (HSca Sqdamp) s' = Ok (dc_qdamp c) /\ getvar (HSca Sqbroad) s' = Ok 0%R) /\
  (forall qmax qdamp rmin rmax bin, (0 <= rmin <= rmax)%R -> 1 < bin -> (0 <= qmax)%R -> (0 <= qdamp)%R ->
     exists s' d, step look (OAlloc qmax qdamp rmin rmax bin) s = (s', Ok tt) /\ s_sets s' = s_sets s ++ [d] /\ cur_set s' d /\
     fresh_set d rmin rmax (repeat 0%R (Z.to_nat bin)) (repeat 1%R (Z.to_nat bin)) /\
     getvar (HSca Sdscale) s' = Ok 1%R /\ getvar (HSca Sqdamp) s' = Ok qdamp /\ getvar (HSca Sqbroad) s' = Ok 0%R).
Proof. exact (fun look l s R => conj (fun c => read_data_values look l s c R) (fun a b c d e => alloc_values look l s a b c d e R)). Qed.
Print Assumptions C48_new_data.

(** nothing loaded and never reset: all variables are unassigned *)
Theorem C48_unassigned : forall look l s, reachable look l s -> Forall (fun o => is_reset o = false) l ->
  (s_phases s = [] -> (forall v i, get_ref v i s = Err ErrUnassigned) /\
                      (forall v lo, phase_var v = Some lo -> getvar (HSca v) s = Err ErrUnassigned /\ forall x, setvar (HSca v) x s = (s, Err ErrUnassigned))) /\
  (s_sets s = [] -> forall v lo, set_var v = Some lo -> getvar (HSca v) s = Err ErrUnassigned /\ forall x, setvar (HSca v) x s = (s, Err ErrUnassigned)).
Proof. exact unassigned_before_load. Qed.
Print Assumptions C48_unassigned.

(** after reset the variables still refer to the deleted phase *)
Theorem C48_after_reset_refuted : exists look l s h, reachable look l s /\ s_phases s = [] /\ get_ref Vlat 1 s = Ok h /\ getvar h s = UB.
Proof. destruct reset_dangling as (s & h & R & P & G & U & _). exists ex_look, (ex_ops ++ [OReset]), s, h. exact (conj R (conj P (conj G U))). Qed.
Print Assumptions C48_after_reset_refuted.

(** a reference kept while a structure is read can dangle ... *)
Theorem C48_kept_reference_refuted : exists look l s h r s', reachable look l s /\ get_ref (Vatom Ax) 1 s = Ok h /\ getvar h s = Ok 1%R /\
  step look (OReadStruct r) s = (s', Ok tt) /\ getvar h s' = UB.
Proof. destruct held_dangling as (s & h & s' & H). exists ex_look, [OReadStruct (ex_stru 1 [Ni])], s, h, (ex_stru 2 [Ni; Ox]), s'. exact H. Qed.
Print Assumptions C48_kept_reference_refuted.

(** ... or refer to the other phase, although the variable it was taken for still exists *)
Theorem C48_kept_reference_moves_refuted : exists look l s h r s', reachable look l s /\ get_ref (Vatom Ax) 1 s = Ok h /\ getvar h s = Ok 1%R /\
  step look (OReadStruct r) s = (s', Ok tt) /\ getvar h s' = Ok 2%R /\ load s' 0%nat (LAtom 0 Ax) = Ok 1%R.
Proof. destruct held_other_phase as (s & h & s' & H). exists ex_look, [OReadStruct (ex_stru 1 [Ni; Ox])], s, h, (ex_stru 2 [Ni]), s'. exact H. Qed.
Print Assumptions C48_kept_reference_moves_refuted.

Example C48_example : exists s p d, reachable ex_look ex_ops s /\ cur_phase s p /\ cur_set s d /\ vsize (Vatom Au11) p = 3 /\
  vsize Vlat p = 6 /\ reachable ex_look [] init.
Proof. exact ex_current. Qed.
