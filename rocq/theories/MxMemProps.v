(** C88: matrix objects behave as values and own their memory. *)
From Coq Require Import List Arith Bool.
From Verif Require Import Base MatrixModel MxMemModel MxMemSpec MxMemProof.
Import ListNotations.

(** Any sequence of constructions, assignments (of an object to itself as well),
    fills, resizes, clears, element writes and destructions, of any length and on
    any number of matrices, that uses only existing objects and elements, runs
    without a use of a deleted, absent or too short buffer and without a second
    delete.  Every object then has the shape and the elements it has when the
    program is read as one on plain values: no object changes another. *)
Theorem C88_values : forall (T : Type) (zero : T) (ops : list (mop T)) (A : tables T), trun zero [] ops = Some A ->
  exists w, mrun zero ops = Ok w /\
  forall k t, val A k = Some t -> (exists o, obj w k = Ok o /\ o_rows o = t_rows t /\ o_cols o = t_cols t) /\
    forall i j, i < t_rows t -> j < t_cols t -> mread w k i j = Ok (t_at t i j).
Proof. exact @values. Qed.
Print Assumptions C88_values.

Definition prog : list (mop nat) :=
  [MSized 2 2; MPut 0 0 1 5; MCopy 0; MAssign 0 0; MFill 0 7; MResize 1 1 3 9; MDefault; MAssign 2 1; MClear 1].
(** the hypothesis is met; the values *)
Example C88_values_case : exists A, trun 0 [] prog = Some A /\ exists a b c, A = [Some a; Some b; Some c] /\
  t_at a 0 1 = 7 /\ t_rows b = 0 /\ map (t_at c 0) [0; 1; 2] = [0; 5; 9].
Proof. eexists. split. reflexivity. eexists _, _, _. split. reflexivity. vm_compute. auto. Qed.
Example C88_values_run : obind (mrun 0 prog) (fun w => Ok (map (mread w 2 0) [0; 1; 2])) = Ok [Ok 0; Ok 5; Ok 9].
Proof. vm_compute. reflexivity. Qed.

(** At any time every buffer not yet deleted belongs to exactly one existing
    object and has room for exactly its elements. *)
Theorem C88_owner : forall (T : Type) (zero : T) (ops : list (mop T)) (A : tables T) (w : mworld T), trun zero [] ops = Some A -> mrun zero ops = Ok w ->
  forall b d, nth_error (w_bufs w) b = Some (Some d) -> exists k t o, val A k = Some t /\ obj w k = Ok o /\ o_data o = Some b /\
    length d = t_rows t * t_cols t /\ forall k' o', obj w k' = Ok o' -> o_data o' = Some b -> k' = k.
Proof. exact @memory. Qed.
Print Assumptions C88_owner.

Example C88_owner_case : obind (mrun 0 prog) (fun w => Ok (w_bufs w)) = Ok [Some [7; 7; 7; 7]; None; None; Some [0; 5; 9]].
Proof. vm_compute. reflexivity. Qed.

(** Once all objects are destroyed every buffer has been deleted: no leak. *)
Theorem C88_released : forall (T : Type) (zero : T) (ops : list (mop T)) (A : tables T) (w : mworld T), trun zero [] ops = Some A -> mrun zero ops = Ok w ->
  (forall k, val A k = None) -> forall b x, nth_error (w_bufs w) b = Some x -> x = None.
Proof. exact @no_leak. Qed.
Print Assumptions C88_released.

Example C88_released_case : exists A, trun 0 [] (prog ++ [MDestroy 1; MDestroy 0; MDestroy 2]) = Some A /\ (forall k, val A k = None) /\
  obind (mrun 0 (prog ++ [MDestroy 1; MDestroy 0; MDestroy 2])) (fun w => Ok (length (w_bufs w))) = Ok 4.
Proof. eexists. split. reflexivity. split. intros [|[|[|[|k]]]]; reflexivity. vm_compute. reflexivity. Qed.
