(** C89: phases and data sets made by a PdfFit object are deleted once. *)
From Coq Require Import List Arith ZArith Reals Bool Lia Lra.
From Verif Require Import Base OwnModel OwnSpec OwnProof.
Import ListNotations.

(** Whatever is read, allocated and reset, in any order and with any errors, no
    object is deleted twice, the pointers in the lists of phases and data sets are
    distinct and point to existing objects, and besides the objects in the lists
    only those of the refused calls of alloc exist, one each. *)
Theorem C89_objects : forall (cs : list scall) (n : nat), times refused cs n ->
  exists p, own_run cs = Ok p /\ NoDup (p_phases p ++ p_sets p) /\
  (forall a, In a (p_phases p ++ p_sets p) -> nth_error (p_live p) a = Some true) /\
  existing p = length (p_phases p) + length (p_sets p) + n.
Proof. exact objects. Qed.
Print Assumptions C89_objects.

Example C89_objects_case : times refused [CStruct true; CData false; CAlloc 0 0 5 2 10; CData true; CReset; CStruct false; CStruct true] 1.
Proof. apply t_no; [cbn; tauto|]. apply t_no; [cbn; tauto|]. apply t_yes; [cbn; left; left; lra|]. repeat (apply t_no; [cbn; tauto|]). constructor. Qed.

(** After the destructor of the PdfFit object the objects left over are those of
    the refused calls of alloc; none if there were none. *)
Theorem C89_end : forall (cs : list scall) (n : nat), times refused cs n -> exists p, own_run (cs ++ [CReset]) = Ok p /\ existing p = n.
Proof. exact at_end. Qed.
Print Assumptions C89_end.

Example C89_end_case : times refused [CStruct true; CData true; CAlloc 0 0 0 1 100; CData false] 0.
Proof. apply t_no; [cbn; tauto|]. apply t_no; [cbn; tauto|]. apply t_no; [cbn; intros [H|H]; [lra|lia]|]. apply t_no; [cbn; tauto|]. constructor. Qed.

(** Not all objects are deleted in the end: alloc makes the data set before it
    tests its arguments and does not delete it when it throws. *)
Theorem C89_end_refuted : exists c p, own_run [c; CReset] = Ok p /\ existing p = 1.
Proof. exact leaks. Qed.
Print Assumptions C89_end_refuted.
