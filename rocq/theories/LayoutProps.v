(** C50. *)
From Coq Require Import List Arith Lia ZArith.
From Verif Require Import Base ConModel LayoutModel LayoutSpec LayoutProof.
Import ListNotations.

(** C50: fit_setup gives every refinable variable its slot, with the constraint of
    that variable and the address of its error; it refuses exactly when the counters
    disagree with the phases and data sets. *)
Theorem C50_table : forall find natoms nset npar,
  (npar = phase_size natoms + 3 * nset -> exists s, fit_setup find natoms nset npar = Ok s /\ layout_right find natoms nset s) /\
  (npar <> phase_size natoms + 3 * nset -> fit_setup find natoms nset npar = Err ErrConstraint).
Proof. exact layout_ok. Qed.
Print Assumptions C50_table.

(** C50: slots do not overlap and leave no gap. *)
Theorem C50_slots : forall natoms nset,
  (forall v, exists_var natoms nset v -> slot natoms v < phase_size natoms + 3 * nset) /\
  (forall v w, exists_var natoms nset v -> exists_var natoms nset w -> slot natoms v = slot natoms w -> v = w) /\
  (forall s, s < phase_size natoms + 3 * nset -> exists v, exists_var natoms nset v /\ slot natoms v = s) /\
  phase_size natoms = 11 * length natoms + 10 * list_sum natoms.
Proof. intros natoms nset. exact (conj (slot_lt natoms nset) (conj (slot_inj natoms nset) (conj (slot_onto natoms nset) (phase_size_count natoms)))). Qed.
Print Assumptions C50_slots.
Example C50_slot_case : exists_var [2; 1] 1 (AV 1 0 (FU 2)) /\ slot [2; 1] (AV 1 0 (FU 2)) = 47 /\ phase_size [2; 1] + 3 * 1 = 55 /\ slot [2; 1] (SV 0 FQbroad) = 54.
Proof. simpl. lia. Qed.

(** C50: whatever was read, failed to be read or cleared before, the counters agree
    and fit_setup does not refuse. *)
Theorem C50_counters : forall find ops, let k := count_run ops in
  exists s, fit_setup find (co_natoms k) (co_nset k) (getnpar k) = Ok s.
Proof. exact never_throws. Qed.
Print Assumptions C50_counters.
Example C50_counters_case : let k := count_run [ReadStruct 5; NewSet; ResetAll; ReadStruct 2; ReadFails; NewSet; ReadStruct 1] in
  co_natoms k = [2; 1] /\ getnpar k = 55.
Proof. split; reflexivity. Qed.

(** C50: the errors of the constraints go to exactly the variables under them. *)
Theorem C50_errors : forall T addr l natoms nset (dvar : list T) sd, NoDup (map cvar l) -> length dvar = length l ->
  exists sd', obind (fit_setup (fun v => vfind l (addr v)) natoms nset (phase_size natoms + 3 * nset)) (fun s => fill_errors T s dvar sd) = Ok sd' /\
    errors_spread addr l natoms nset dvar sd sd'.
Proof. exact spread_ok. Qed.
Print Assumptions C50_errors.
Example C50_errors_case : exists sd',
  obind (fit_setup (fun v => vfind [mkCon 4 nil 1%Z IDENT true; mkCon 3 nil 2%Z IDENT true] (match v with PV 0 FPscale => 3 | AV 0 1 FOcc => 4 | _ => 9 end)) [2] 1 34) (fun s => fill_errors nat s [7; 8] (fun _ => 0)) = Ok sd' /\
  sd' (PV 0 FPscale) = 8 /\ sd' (AV 0 1 FOcc) = 7 /\ sd' (SV 0 FDscale) = 0.
Proof. eexists. split. reflexivity. repeat split. Qed.
