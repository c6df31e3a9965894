(** A small table and what goes wrong with it. *)
From Coq Require Import String List Arith Bool.
From Verif Require Import Base PtModel PtSpec.
Import ListNotations.
Local Open Scope string_scope.

Definition ptbl : list (atype nat) := [mkAt "H" "Hydrogen" 1; mkAt "D" "Deuterium" 2; mkAt "T" "Tritium" 3; mkAt "He" "Helium" 4].
Definition pheap (s : ptab nat) (p : nat) := deref (pt_heap s) p.

Lemma reset_fails : exists s p a, prun (pt_init ptbl) [PWrite p (mkAt "He" "Helium" 9); PReset p] = Ok s /\
  pt_symbol (pt_init ptbl) "He" = Some p /\ pheap (pt_init ptbl) p = Ok a /\ pheap s p <> Ok a.
Proof. eexists _, 7, _. split. vm_compute. reflexivity. split. reflexivity. split. vm_compute. reflexivity. vm_compute. discriminate. Qed.
Lemma delete_fails : exists s p, pt_symbol (pt_init ptbl) "D" = Some p /\ prun (pt_init ptbl) [PDelete p] = Ok s /\ pt_symbol s "2-H" = Some p /\ pheap s p = UB.
Proof. eexists _, 3. split. reflexivity. split. vm_compute. reflexivity. split; reflexivity. Qed.
Lemma rename_fails : exists s p, pt_symbol (pt_init ptbl) "He" = Some p /\ prun (pt_init ptbl) [PWrite p (mkAt "4-He" "Helium" 4); PDelete p] = Ok s /\
  pt_symbol s "He" = Some p /\ pheap s p = UB.
Proof. eexists _, 7. split. reflexivity. split. vm_compute. reflexivity. split; reflexivity. Qed.

Definition popl : list (pop nat) :=
  [PDef (mkAt "Xx" "Exium" 5); PWrite 9 (mkAt "Xx" "Exium" 6); PReset 9; PDelete 7; PDef (mkAt "D" "Other" 0); PResetAll].
Lemma popl_tidy : tidy_run (pt_init ptbl) popl.
Proof.
  cbn -[In given]. repeat split; intros; auto.
  - exists "Xx". left. reflexivity.
  - injection H as <-. reflexivity.
  - injection H as <-. reflexivity.
  - exists "Xx". left. reflexivity.
  - injection H as <-. cbn. intuition discriminate.
  - injection H as <-. cbn. intuition discriminate.
Qed.
