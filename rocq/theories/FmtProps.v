(** Property C47: values printed with their deviations. *)
From Coq Require Import Ascii String List Arith ZArith Reals Bool Lia Lra.
From Verif Require Import Base ParserModel DataModel DataSpec FmtModel FmtSpec FmtProof FmtGen FmtFinal.
Import ListNotations.
Local Open Scope R_scope.

(** A field is the value with six digits, followed by the deviation in parentheses
    exactly when it is larger than 1e-8 of the value (or " (NaN)"), with blanks up to
    the width on the side asked for, and nothing is cut off. *)
Theorem C47_field : forall f x dx, (0 < f_std_precision f)%nat -> opt_ok x -> opt_ok dx ->
  exists v s, field_is f x dx (value_std f x dx) v s.
Proof. exact field_ok. Qed.
Print Assumptions C47_field.
Example C47_field_ex : value_std (mkFmt 20 true true 2) (Some x_ex) (Some dx_ex) = chars " 1234.57 (0.001)    ".
Proof. exact field_ex_width. Qed.

(** Reading the field gives back the value up to 5e-6 of it and, if the deviation is
    shown, the deviation up to 5 percent (two digits), with their signs. *)
Theorem C47_reads_back : forall f x dx r, (0 < f_std_precision f)%nat -> dbl_ok x -> opt_ok dx -> stops r ->
  exists x' t, scan_dbl (value_std f (Some x) dx ++ r) = Some (x', t ++ r) /\
  d_neg x' = d_neg x /\ Rabs (d_val x' - d_val x) <= 5 / 1000000 * Rabs (d_val x) /\
  forall d, dx = Some d -> matters (Some x) d ->
  exists d' t', scan_dbl (skipn 2 t ++ r) = Some (d', t' ++ r) /\ firstn 2 t = chars " (" /\ firstn 1 t' = chars ")" /\
  d_neg d' = d_neg d /\ Rabs (d_val d' - d_val d) <= 5 / 10 ^ f_std_precision f * Rabs (d_val d).
Proof. exact reads_back. Qed.
Print Assumptions C47_reads_back.
Example C47_reads_back_ex : dbl_ok x_ex /\ opt_ok (Some dx_ex) /\ matters (Some x_ex) dx_ex.
Proof.
  split; [|split]. unfold dbl_ok, x_ex; simpl; lra. unfold opt_ok, dbl_ok, dx_ex; simpl; lra.
  exists x_ex. split; auto. unfold d_val. cbn [x_ex dx_ex d_neg d_mag]. rewrite Rabs_right by lra. lra.
Qed.

(** Fields with a leading blank never run into each other, whatever the width. *)
Theorem C47_columns : forall f x dx rest, (0 < f_std_precision f)%nat -> dbl_ok x -> opt_ok dx ->
  Forall (fun c : fmt * option dbl * option dbl => let '(g, y, dy) := c in f_leading_blank g = true /\ (0 < f_std_precision g)%nat /\ opt_ok y /\ opt_ok dy) rest ->
  let r := concat (map (fun c : fmt * option dbl * option dbl => let '(g, y, dy) := c in value_std g y dy) rest) in
  exists x' t, scan_dbl (value_std f (Some x) dx ++ r) = Some (x', t ++ r) /\
  d_neg x' = d_neg x /\ Rabs (d_val x' - d_val x) <= 5 / 1000000 * Rabs (d_val x).
Proof. exact columns_ok. Qed.
Print Assumptions C47_columns.
Example C47_columns_ex : value_std (mkFmt 0 true true 2) (Some x_ex) (Some dx_ex) ++ value_std (mkFmt 0 true true 2) (Some x_ex) None =
  chars " 1234.57 (0.001) 1234.57 (NaN)".
Proof.
  unfold value_std. cbn [f_leading_blank f_std_precision f_width f_left]. rewrite x_text, dx_text.
  destruct Rlt_dec as [L|L]. reflexivity. exfalso. apply L. unfold d_val. cbn [x_ex dx_ex d_neg d_mag]. rewrite Rabs_right by lra. lra.
Qed.

(** It is not true that the value is printed as precisely as its deviation: 1234.5678
    with deviation 0.001 is printed 1234.57 (0.001). *)
Theorem C47_refuted : exists x dx n m, matters (Some x) dx /\
  value_std fmt_new (Some x) (Some dx) = print_numeral n ++ chars " (" ++ print_numeral m ++ chars ")" /\
  numeral_ok n /\ numeral_ok m /\ 2 * numeral_value m < Rabs (numeral_value n - d_val x).
Proof. exact coarse. Qed.
Print Assumptions C47_refuted.
