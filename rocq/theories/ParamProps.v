(** C01, C02: the parameter table. *)
From Coq Require Import List ZArith String Lia.
From Verif Require Import Base ParamModel ParamSpec ParamProof.
Import ListNotations.
Local Open Scope Z_scope.

(** C01: getpar after any history of calls. *)
Theorem C01_getpar_last_set {T : Type} :
  forall (h : list (pop T)) (n : Z),
    pstep (prun ptab_init h) (PGet n) =
      (prun ptab_init h,
       match last_set (u32 n) (rev h) with
       | Some v => PVal v
       | None => PErr ErrUnassigned
       end).
Proof. exact getpar_last_set. Qed.
Print Assumptions C01_getpar_last_set.

(** the hypothesis-free statement at a concrete history: parameter 7 set twice,
    others set, fixed and freed in between *)
Example C01_case :
  snd (pstep (prun ptab_init
        [PSet 7 1; PSet 3 5; PFix 7; PSet 7 2; PFree (-1); PSet (-9) 4; PFix 12]) (PGet 7))
  = PVal 2 /\
  snd (pstep (prun (@ptab_init Z) [PSet 7 1]) (PGet 8)) = PErr ErrUnassigned.
Proof. split; reflexivity. Qed.

(** C02: free flag of every id after any history; [pfree] is what the
    refinement consults (fit.ip). *)
Theorem C02_flag_last_fix_free {T : Type} :
  forall (h : list (pop T)) (k : Z),
    match find_pos k (pid (prun ptab_init h)) with
    | Some i => nth_error (pfree (prun ptab_init h)) i
    | None => None
    end = flag_of k (rev h).
Proof. exact aflag_run. Qed.
Print Assumptions C02_flag_last_fix_free.

(** C02: fixing or freeing an undefined id is the only failure, it reports
    unassignedError and changes nothing; ALL never fails. *)
Theorem C02_fix_free_outcome {T : Type} :
  forall (h : list (pop T)) (n : Z) (o : pop T),
    o = PFix n \/ o = PFree n ->
    let r := pstep (prun ptab_init h) o in
    snd r = (if n =? -1 then PNone else
             match last_set (u32 n) (rev h) with
             | Some _ => PNone | None => PErr ErrUnassigned end)
    /\ (snd r <> PNone -> fst r = prun ptab_init h).
Proof. exact fix_free_outcome. Qed.
Print Assumptions C02_fix_free_outcome.

(** ids stay distinct and the vectors parallel *)
Theorem C02_table_wellformed {T : Type} :
  forall (h : list (pop T)),
    let t := prun ptab_init h in
    List.length (pval t) = List.length (pid t) /\ List.length (pfree t) = List.length (pid t)
    /\ NoDup (pid t).
Proof. exact wf_run. Qed.
Print Assumptions C02_table_wellformed.

Example C02_case :
  let t := prun ptab_init
     [PSet 1 10; PSet 2 20; PFix (-1); PSet 3 30; PFree 2; PSet 1 11] in
  pfree t = [false; true; true] /\ pid t = [1; 2; 3] /\ pval t = [11; 20; 30].
Proof. repeat split. Qed.

(** Finding: the id 4294967295 (also reached by setpar(-1)) cannot be fixed on
    its own: fixpar(-1) means ALL, and no other int names it. *)
Theorem C02_fix_single_id_refuted :
  exists (h : list (pop Z)) (k : Z),
    flag_of k h <> None /\
    forall n, -2147483648 <= n < 2147483648 ->
      names n k = true -> forall k', names n k' = true.
Proof. exact fix_single_id_refuted. Qed.
Print Assumptions C02_fix_single_id_refuted.
