(** C90: the table of elements while elements are defined, changed, restored and deleted. *)
From Coq Require Import String List Arith Bool.
From Verif Require Import Base PtModel PtSpec PtProof PtFinal.
Import ListNotations.

(** For any table to start with and any sequence of definitions, deletions,
    restorations and changes of values that renames no element and deletes neither
    deuterium nor tritium: no deleted object is used, and whatever symbol or name is
    looked up the pointer returned is to an existing element called so. *)
Theorem C90_lookup : forall (D : Type) (tbl : list (atype D)) (ops : list (pop D)), tidy_run (pt_init tbl) ops ->
  exists s, prun (pt_init tbl) ops = Ok s /\
  (forall k p, pt_symbol s k = Some p -> exists a, deref (pt_heap s) p = Ok a /\ called a k) /\
  (forall k p, pt_name s k = Some p -> exists a, deref (pt_heap s) p = Ok a /\ a_name a = k).
Proof. exact @safe. Qed.
Print Assumptions C90_lookup.

Example C90_lookup_case : tidy_run (pt_init ptbl) popl /\
  obind (prun (pt_init ptbl) popl) (fun s => Ok (map (pt_symbol s) ["D"; "2-H"; "He"; "Xx"]%string)) = Ok [Some 3; Some 3; None; Some 9].
Proof. split. exact popl_tidy. vm_compute. reflexivity. Qed.

(** resetAll gives an element the values of its definition, whatever was done
    since. *)
Theorem C90_reset_all : forall (D : Type) (tbl : list (atype D)) ops1 s1 a s2 p ops2 s3, tidy_run (pt_init tbl) ops1 -> prun (pt_init tbl) ops1 = Ok s1 ->
  pstep s1 (PDef a) = Ok s2 -> pt_symbol s2 (a_symbol a) = Some p -> tidy_run s2 ops2 -> ~ In (PDelete p) ops2 -> prun s2 ops2 = Ok s3 ->
  exists s4, pstep s3 PResetAll = Ok s4 /\ deref (pt_heap s4) p = Ok a.
Proof. exact @reset_all_def. Qed.
Print Assumptions C90_reset_all.

(** the same for the elements there from the start *)
Theorem C90_reset_all_init : forall (D : Type) (tbl : list (atype D)) k p a ops s, pt_symbol (pt_init tbl) k = Some p -> deref (pt_heap (pt_init tbl)) p = Ok a ->
  tidy_run (pt_init tbl) ops -> ~ In (PDelete p) ops -> prun (pt_init tbl) ops = Ok s ->
  exists s', pstep s PResetAll = Ok s' /\ deref (pt_heap s') p = Ok a.
Proof. exact @reset_all_init. Qed.
Print Assumptions C90_reset_all_init.

Example C90_reset_all_case : pt_symbol (pt_init ptbl) "He"%string = Some 7 /\ tidy_run (pt_init ptbl) [PWrite 7 (mkAt "He"%string "Helium"%string 9)] /\
  obind (prun (pt_init ptbl) [PWrite 7 (mkAt "He"%string "Helium"%string 9); PResetAll]) (fun s => deref (pt_heap s) 7) = Ok (mkAt "He"%string "Helium"%string 4).
Proof.
  split. reflexivity. split; [|vm_compute; reflexivity]. cbn -[given]. split; [|exact I]. split. exists "He"%string. left. reflexivity. intros b H. injection H as <-. split; reflexivity.
Qed.

(** Deletions and the destructor delete every object once and leave none. *)
Theorem C90_clear : forall (D : Type) (tbl : list (atype D)) ops s, tidy_run (pt_init tbl) ops -> prun (pt_init tbl) ops = Ok s ->
  exists h, pt_clear s = Ok h /\ forall q x, nth_error h q = Some x -> x = None.
Proof. exact @cleared. Qed.
Print Assumptions C90_clear.

Example C90_clear_case : obind (prun (pt_init ptbl) popl) (fun s => omap (@length _) (pt_clear s)) = Ok 10.
Proof. vm_compute. reflexivity. Qed.

(** reset of one element throws for every pointer the table gives out: it looks
    for the pointer among the backup copies. *)
Theorem C90_reset_throws : forall (D : Type) (tbl : list (atype D)) ops s p, tidy_run (pt_init tbl) ops -> prun (pt_init tbl) ops = Ok s -> given s p ->
  pstep s (PReset p) = Err ErrPlain.
Proof. exact @reset_throws. Qed.
Print Assumptions C90_reset_throws.

Example C90_reset_throws_case : given (pt_init ptbl) 7.
Proof. exists "Helium"%string. right. reflexivity. Qed.

(** so it does not restore the element *)
Theorem C90_reset_refuted : exists s p a, prun (pt_init ptbl) [PWrite p (mkAt "He" "Helium" 9); PReset p]%string = Ok s /\
  pt_symbol (pt_init ptbl) "He"%string = Some p /\ pheap (pt_init ptbl) p = Ok a /\ pheap s p <> Ok a.
Proof. exact reset_fails. Qed.
Print Assumptions C90_reset_refuted.

(** After deuterium is deleted, 2-H still leads to the deleted object. *)
Theorem C90_delete_refuted : exists s p, pt_symbol (pt_init ptbl) "D"%string = Some p /\ prun (pt_init ptbl) [PDelete p] = Ok s /\
  pt_symbol s "2-H"%string = Some p /\ pheap s p = UB.
Proof. exact delete_fails. Qed.
Print Assumptions C90_delete_refuted.

(** An element deleted after its symbol was changed is still found, deleted, by
    its first symbol. *)
Theorem C90_rename_refuted : exists s p, pt_symbol (pt_init ptbl) "He"%string = Some p /\ prun (pt_init ptbl) [PWrite p (mkAt "4-He" "Helium" 4)%string; PDelete p] = Ok s /\
  pt_symbol s "He"%string = Some p /\ pheap s p = UB.
Proof. exact rename_fails. Qed.
Print Assumptions C90_rename_refuted.

(** All elements of the table are found by symbol and by name at the start; if
    no symbol occurs twice, with their values. *)
Theorem C90_start : forall (D : Type) (tbl : list (atype D)) a, In a tbl ->
  (exists p, pt_symbol (pt_init tbl) (a_symbol a) = Some p) /\ (exists p, pt_name (pt_init tbl) (a_name a) = Some p).
Proof. exact @init_finds. Qed.
Print Assumptions C90_start.
Theorem C90_start_values : forall (D : Type) (tbl : list (atype D)) a p, NoDup (map (fun x => a_symbol x) tbl) ->
  ~ In "2-H"%string (map (fun x => a_symbol x) tbl) -> ~ In "3-H"%string (map (fun x => a_symbol x) tbl) ->
  In a tbl -> pt_symbol (pt_init tbl) (a_symbol a) = Some p -> deref (pt_heap (pt_init tbl)) p = Ok a.
Proof. exact @unique_values. Qed.
Print Assumptions C90_start_values.

Example C90_start_case : In (mkAt "T"%string "Tritium"%string 3) ptbl /\ NoDup (map (fun x => a_symbol x) ptbl) /\
  ~ In "2-H"%string (map (fun x => a_symbol x) ptbl) /\ pt_symbol (pt_init ptbl) "T"%string = Some 5.
Proof. split. cbn; auto. split. repeat constructor; cbn; intuition discriminate. split. cbn; intuition discriminate. reflexivity. Qed.

(** An element is defined exactly if its symbol and its name are new.  It is then
    found by both; no other symbol or name and no other element changes. *)
Theorem C90_define : forall (D : Type) (s : ptab D) (a : atype D), match pstep s (PDef a) with
  | Ok s' => pt_symbol s (a_symbol a) = None /\ pt_name s (a_name a) = None /\
      (exists p, pt_symbol s' (a_symbol a) = Some p /\ pt_name s' (a_name a) = Some p /\ deref (pt_heap s') p = Ok a) /\
      (forall k, k <> a_symbol a -> pt_symbol s' k = pt_symbol s k) /\ (forall k, k <> a_name a -> pt_name s' k = pt_name s k) /\
      (forall q b, deref (pt_heap s) q = Ok b -> deref (pt_heap s') q = Ok b)
  | Err _ => pt_symbol s (a_symbol a) <> None \/ pt_name s (a_name a) <> None
  | _ => False
  end.
Proof. exact @define_ok. Qed.
Print Assumptions C90_define.

Example C90_define_case : exists s, pstep (pt_init ptbl) (PDef (mkAt "Xx" "Exium" 5)%string) = Ok s /\ pstep (pt_init ptbl) (PDef (mkAt "Xx" "Helium" 5)%string) = Err ErrPlain.
Proof. eexists. split; vm_compute; reflexivity. Qed.

(** A deleted element is gone, its symbol and name are no longer found; no other
    symbol or name and no other element changes. *)
Theorem C90_delete : forall (D : Type) (tbl : list (atype D)) ops s p a, tidy_run (pt_init tbl) ops -> prun (pt_init tbl) ops = Ok s -> given s p -> deref (pt_heap s) p = Ok a ->
  exists s', pstep s (PDelete p) = Ok s' /\ deref (pt_heap s') p = UB /\
  (forall k, pt_symbol s' k = if String.eqb (a_symbol a) k then None else pt_symbol s k) /\
  (forall k, pt_name s' k = if String.eqb (a_name a) k then None else pt_name s k) /\
  (forall q, given s q -> q <> p -> deref (pt_heap s') q = deref (pt_heap s) q).
Proof. exact @delete_ok. Qed.
Print Assumptions C90_delete.

Example C90_delete_case : given (pt_init ptbl) 7 /\ deref (pt_heap (pt_init ptbl)) 7 = Ok (mkAt "He" "Helium" 4)%string.
Proof. split. exists "He"%string. left. reflexivity. reflexivity. Qed.

(** resetAll and changes of values leave what is found as it is. *)
Theorem C90_kept : forall (D : Type) (s : ptab D) op s', pstep s op = Ok s' ->
  match op with PDef _ | PDelete _ => True | _ => forall k, pt_symbol s' k = pt_symbol s k /\ pt_name s' k = pt_name s k end.
Proof. exact @kept. Qed.
Print Assumptions C90_kept.

Example C90_kept_case : exists s, pstep (pt_init ptbl) PResetAll = Ok s.
Proof. eexists. vm_compute. reflexivity. Qed.
