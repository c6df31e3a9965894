(** Property theorems C39-C41. *)
From Coq Require Import Ascii String List Arith ZArith Reals Bool Lia Lra.
From Verif Require Import Base ParserModel RSum PdfModel DataModel ElementTable ScatModel ScatSpec ScatProof FracProof ScatEx.
Import ListNotations.
Local Open Scope R_scope.

(** C39: for sound phases the fractions of every normalisation lie in [0,1], add up
    to 1 and are 0 for phases that are not selected. *)
Theorem C39_fractions : forall k sel, sound_selection sel -> one_used sel ->
  exists f, map fst (fractions k sel) = map Some f /\ length f = length sel /\ Forall (fun x => 0 <= x <= 1) f /\
    lsum (fun x => x) f = 1 /\
    forall i, (i < length sel)%nat -> nth i sel None = None -> nth i f 1 = 0.
Proof. exact frac_sound. Qed.
Print Assumptions C39_fractions.
Example C39_fractions_ex : sound_selection ex_sel /\ one_used ex_sel /\ map fst (fractions ByAtom ex_sel) = [Some (1/4); Some 0; Some (3/4)].
Proof. exact (conj (proj1 ex_sound) (conj (proj2 ex_sound) ex_fractions)). Qed.

(** C39: whenever the total is positive, the i-th entry is the share of phase i and
    its standard deviation is that of first-order error propagation from the
    standard deviations of the scales, with the true partial derivatives. *)
Theorem C39_values : forall k sel i, all_scatter sel -> 0 < total k sel (map scale_of sel) -> (i < length sel)%nat ->
  exists d, gradient k sel i (map scale_of sel) d /\
    nth i (fractions k sel) (None, None) =
    (Some (fraction_of k sel i (map scale_of sel)), Some (propagated d (map dscale_of sel))).
Proof. exact frac_values. Qed.
Print Assumptions C39_values.
Example C39_values_ex : all_scatter ex_sel /\ 0 < total ByMass ex_sel (map scale_of ex_sel) /\ (2 < length ex_sel)%nat.
Proof. exact (conj (sound_scatter _ (proj1 ex_sound)) (conj (sound_total ByMass _ (proj1 ex_sound) (proj2 ex_sound)) (le_n 3))). Qed.

(** C39: otherwise all fractions and standard deviations are zero. *)
Theorem C39_no_total : forall k sel, all_scatter sel -> total k sel (map scale_of sel) <= 0 ->
  fractions k sel = map (fun _ => (Some 0, Some 0)) sel.
Proof. exact frac_zero. Qed.
Print Assumptions C39_no_total.
Example C39_no_total_ex : all_scatter ex_neg /\ total ByCell ex_neg (map scale_of ex_neg) <= 0.
Proof. exact ex_neg_ok. Qed.

(** C40: after any history get_scat returns the factor the history gives the phase,
    element and radiation. *)
Theorem C40_history : forall ops p t tp q e r,
  nth_error (scat_run elements ops) p = Some t -> means q e -> radiation_of tp r ->
  exists v, get_scat elements t tp q = Ok v /\ factor_is p e r (rev ops) v.
Proof. exact get_ok. Qed.
Print Assumptions C40_history.
Example C40_history_ex : (exists t, nth_error (scat_run elements ex_ops) 1 = Some t) /\ means (chars "sODium") sodium /\ radiation_of "x" XRay /\
  factor_is 0 sodium XRay (rev ex_ops) 5 /\ factor_is 0 sodium Neutron (rev ex_ops) (3632 / 10 ^ 3) /\
  factor_is 1 sodium XRay (rev ex_ops) 11 /\ factor_is 1 sodium Neutron (rev ex_ops) 8.
Proof.
  split; [|split; [exact (proj1 ex_mean)|split; [simpl; auto|exact ex_factors]]].
  destruct (nth_error (scat_run elements ex_ops) 1) as [t|] eqn:E; eauto.
  apply nth_error_None in E. rewrite run_len in E. simpl in E. lia.
Qed.

(** C40: that factor is unique, and the phases are those created since the last
    clearing. *)
Theorem C40_unique : forall p e r h v v', factor_is p e r h v -> factor_is p e r h v' -> v = v'.
Proof. exact factor_unique. Qed.
Print Assumptions C40_unique.
Theorem C40_phases : forall ops, length (scat_run elements ops) = phases_of (rev ops).
Proof. exact run_len. Qed.
Print Assumptions C40_phases.
Example C40_phases_ex : phases_of (rev ex_ops) = 2%nat /\ phases_of [ClearAll; NewPhase] = 0%nat.
Proof. split; reflexivity. Qed.

(** C40: the calls fail exactly for unknown elements and radiations. *)
Theorem C40_refused : forall t tp q,
  ((forall e, ~ means q e) \/ (forall r, ~ radiation_of tp r) -> get_scat elements t tp q = Err ErrValue) /\
  (forall v, snd (set_scat elements t tp q v) = Ok tt <-> (exists e, means q e) /\ exists r, radiation_of tp r) /\
  (snd (reset_scat elements t q) = Ok tt <-> exists e, means q e).
Proof. exact (fun t tp q => conj (get_bad t tp q) (conj (set_result t tp q) (reset_result t q))). Qed.
Print Assumptions C40_refused.
Example C40_refused_ex : (forall e, ~ means (chars "Xx") e) /\ means (chars "na") sodium.
Proof. exact (conj ex_none (proj1 (proj2 ex_mean))). Qed.

(** C41: the lookup finds exactly the element meant by the query: the one whose
    symbol or name it is, in any letter case. *)
Theorem C41_lookup : forall q e, pt_lookup elements q = Some e <-> means q e.
Proof. exact lookup_ok. Qed.
Print Assumptions C41_lookup.
Example C41_lookup_ex : means (chars "sODium") sodium /\ (exists e, means (chars "2-h") e /\ means (chars "D") e /\ means (chars "deuterium") e).
Proof. exact (conj (proj1 ex_mean) ex_deut). Qed.

(** C41: letter case never matters. *)
Theorem C41_case : forall q q', same_but_case q q' -> pt_lookup elements q = pt_lookup elements q'.
Proof. exact lookup_case. Qed.
Print Assumptions C41_case.
Example C41_case_ex : same_but_case (chars "sODium") (chars "SodIUM").
Proof. exact ex_same. Qed.

(** C41: a query means at most one element; the symbol and the name of every element
    of the table find this element. *)
Theorem C41_unique : forall q e e', means q e -> means q e' -> e = e'.
Proof. exact means_unique. Qed.
Print Assumptions C41_unique.
Theorem C41_stored : forall e, In e elements ->
  pt_lookup elements (chars (el_symbol e)) = Some e /\ pt_lookup elements (chars (el_name e)) = Some e.
Proof. exact lookup_stored. Qed.
Print Assumptions C41_stored.
Example C41_stored_ex : In sodium elements.
Proof. exact (proj1 (proj1 ex_mean)). Qed.
