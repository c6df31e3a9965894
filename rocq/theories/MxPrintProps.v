(** C91: printed vectors and matrices. *)
From Coq Require Import String Ascii List Arith Bool Lia.
From Verif Require Import Base MxPrintModel MxPrintSpec MxPrintProof.
Import ListNotations.
Local Open Scope list_scope.

(** A vector that is not empty is printed as its elements between commas, in
    parentheses and with an end of line; all of it to the stream given. *)
Theorem C91_vector : forall (T : Type) (show : T -> list ascii) (v : list T), v <> [] ->
  all_text (vec_out show v) = paren "(" (String ")" newline) (map show v) /\ out_text (vec_out show v) = all_text (vec_out show v).
Proof. exact @vector_text. Qed.
Print Assumptions C91_vector.

Example C91_vector_case : string_of_list_ascii (all_text (vec_out (fun b : bool => lit (if b then "1" else "0")) [true; false])) = ("(1, 0)" ++ newline)%string.
Proof. vm_compute. reflexivity. Qed.

(** An empty vector is printed as an opening parenthesis alone. *)
Theorem C91_vector_refuted : exists v : list bool, all_text (vec_out (fun _ => []) v) = lit "(" /\ all_text (vec_out (fun _ => []) v) <> paren "(" (String ")" newline) [].
Proof. exact vector_empty. Qed.
Print Assumptions C91_vector_refuted.

(** A matrix printed to *pout is the list of its rows, each as its elements between
    commas in parentheses. *)
Theorem C91_matrix : forall (T : Type) (show : T -> list ascii) (r c : nat) (at_ : nat -> nat -> T), 0 < r -> 0 < c ->
  all_text (mx_out show r c at_) = paren "( " (String " " (String ")" newline)) (map (fun row => paren "(" ")" (map show row)) (rows_of r c at_)).
Proof. exact @matrix_text. Qed.
Print Assumptions C91_matrix.

Example C91_matrix_case : string_of_list_ascii (all_text (mx_out (fun b : bool => lit (if b then "1" else "0")) 2 2 (fun i j => i =? j))) = ("( (1, 0), (0, 1) )" ++ newline)%string.
Proof. vm_compute. reflexivity. Qed.

(** Any other stream only gets opening parentheses, none of the elements: these
    go to *pout. *)
Theorem C91_matrix_stream : forall (T : Type) (show : T -> list ascii) (r c : nat) (at_ : nat -> nat -> T),
  out_text (mx_out show r c at_) = list_ascii_of_string "( " ++ repeat "("%char r.
Proof. exact @matrix_other. Qed.
Print Assumptions C91_matrix_stream.
Theorem C91_matrix_refuted : exists (r c : nat) (at_ : nat -> nat -> bool), out_text (mx_out (fun b : bool => lit (if b then "1" else "0")) r c at_) <>
  paren "( " (String " " (String ")" newline)) (map (fun row => paren "(" ")" (map (fun b : bool => lit (if b then "1" else "0")) row)) (rows_of r c at_)).
Proof. exact matrix_split. Qed.
Print Assumptions C91_matrix_refuted.

(** print writes one line per row: its index, a colon and the elements, each
    followed by a blank. *)
Theorem C91_print : forall (T : Type) (show : T -> list ascii) num (r c : nat) (at_ : nat -> nat -> T),
  all_text (mx_print show num r c at_) =
  concat (map (fun i => num i ++ lit ": " ++ concat (map (fun x => show x ++ lit " ") (nth i (rows_of r c at_) [])) ++ list_ascii_of_string newline) (seq 0 r)).
Proof. exact @print_text. Qed.
Print Assumptions C91_print.

Example C91_print_case : string_of_list_ascii (all_text (mx_print (fun b : bool => lit (if b then "1" else "0")) (fun i => lit (if i =? 0 then "0" else "1")) 2 1 (fun i j => i =? j))) =
  ("0: 1 " ++ newline ++ "1: 0 " ++ newline)%string.
Proof. vm_compute. reflexivity. Qed.
