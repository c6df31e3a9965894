(** C46: matrix class; C51: propagation of the covariance to the variables. *)
From Coq Require Import List Arith Reals Lra Lia.
From Verif Require Import Base MatrixModel MatrixProof RSum ErrorModel ErrorProof.
Import ListNotations.

(** resize keeps what fits and fills the rest *)
Theorem C46_resize {T : Type} :
  forall (z : T) (a : matrix T) m n, mwf a ->
  exists b, mx_resize z a m n = Ok b /\ mwf b /\ mrows b = m /\ mcols b = n /\
    forall i j, i < m -> j < n ->
      mx_get b i j = if ((i <? mrows a) && (j <? mcols a))%bool then mx_get a i j else Ok z.
Proof. exact mx_resize_spec. Qed.
Print Assumptions C46_resize.

Theorem C46_transposed {T : Type} :
  forall (z : T) (a : matrix T), mwf a ->
  exists b, mx_transposed z a = Ok b /\ mwf b /\ mrows b = mcols a /\ mcols b = mrows a /\
    forall i j, i < mrows a -> j < mcols a -> mx_get b j i = mx_get a i j.
Proof. exact mx_transposed_spec. Qed.
Print Assumptions C46_transposed.

(** writing one entry changes that entry only *)
Theorem C46_set {T : Type} :
  forall (a : matrix T) i j v, mwf a -> i < mrows a -> j < mcols a ->
  exists b, mx_set a i j v = Ok b /\ mwf b /\ mrows b = mrows a /\ mcols b = mcols a /\
    mx_get b i j = Ok v /\ forall i' j', (i', j') <> (i, j) -> mx_get b i' j' = mx_get a i' j'.
Proof. exact mx_set_spec. Qed.
Print Assumptions C46_set.

Theorem C46_rows_and_columns {T : Type} :
  forall (a : matrix T) k, mwf a ->
  (k < mrows a -> exists r, mx_row a k = Ok r /\ length r = mcols a /\
    forall j, j < mcols a -> omap (@Some T) (mx_get a k j) = Ok (nth_error r j)) /\
  (k < mcols a -> exists r, mx_col a k = Ok r /\ length r = mrows a /\
    forall i, i < mrows a -> omap (@Some T) (mx_get a i k) = Ok (nth_error r i)).
Proof. exact mx_rowcol_spec. Qed.
Print Assumptions C46_rows_and_columns.

(** product over the reals *)
Theorem C46_product :
  forall (a b : matrix R), mwf a -> mwf b ->
  (mcols a <> mrows b -> mx_mul 0%R Rplus Rmult a b = Err ErrPlain) /\
  (mcols a = mrows b -> exists c, mx_mul 0%R Rplus Rmult a b = Ok c /\ mwf c /\
     mrows c = mrows a /\ mcols c = mcols b /\
     forall i j, i < mrows a -> j < mcols b ->
       mx_get c i j = Ok (rsum (mcols a) (fun k => ent 0 a i k * ent 0 b k j))%R).
Proof. exact mx_mul_R. Qed.
Print Assumptions C46_product.

Theorem C46_transposed_twice {T : Type} :
  forall (z : T) (a : matrix T), mwf a -> obind (mx_transposed z a) (mx_transposed z) = Ok a.
Proof. exact transposed_twice. Qed.
Print Assumptions C46_transposed_twice.

Theorem C46_transposed_product :
  forall (a b : matrix R), mwf a -> mwf b -> mcols a = mrows b ->
  obind (mx_mul 0%R Rplus Rmult a b) (mx_transposed 0%R) =
  obind (mx_transposed 0%R a) (fun at_ => obind (mx_transposed 0%R b) (fun bt =>
    mx_mul 0%R Rplus Rmult bt at_)).
Proof. exact transposed_product. Qed.
Print Assumptions C46_transposed_product.

Theorem C46_sd {T : Type} :
  forall (z : T) (sq : T -> T) (a : matrix T), mwf a ->
  (mrows a <> mcols a -> mx_sd z sq a = Err ErrPlain) /\
  (mrows a = mcols a -> exists r, mx_sd z sq a = Ok r /\ length r = mcols a /\
     forall i, i < mcols a -> exists x, mx_get a i i = Ok x /\ nth_error r i = Some (sq x)).
Proof. exact mx_sd_spec. Qed.
Print Assumptions C46_sd.

(** the hypotheses hold of a 2x3 matrix *)
Example C46_case :
  let a := mkMx 2 3 [1; 2; 3; 4; 5; 6] in
  mwf a /\ mx_transposed 0 a = Ok (mkMx 3 2 [1; 4; 2; 5; 3; 6]) /\
  mx_resize 0 a 3 2 = Ok (mkMx 3 2 [1; 2; 4; 5; 0; 0]) /\
  mx_mul 0 plus mult a (mkMx 3 1 [1; 10; 100]) = Ok (mkMx 2 1 [321; 654]) /\
  mx_col a 1 = Ok [2; 5] /\ mx_row a 1 = Ok [4; 5; 6].
Proof. repeat split. Qed.

(** C51: the errors of parameters and of constrained variables *)
Theorem C51_error_propagation :
  forall (J C : matrix R), mwf J -> mwf C -> mrows C = mcols C -> mcols J = mcols C ->
  exists dp dv, propagate J C = Ok (dp, dv) /\
    length dp = mcols C /\ length dv = mrows J /\
    (forall i, i < mcols C -> nth_error dp i = Some (sqrt (ent 0%R C i i))) /\
    (forall i, i < mrows J -> nth_error dv i =
       Some (sqrt (rsum (mcols C) (fun l => rsum (mcols C) (fun k => ent 0 J i k * ent 0 C k l * ent 0 J i l))))%R).
Proof. exact propagate_spec. Qed.
Print Assumptions C51_error_propagation.

(** C51: a size mismatch, e.g. a parameter defined after the refinement, raises
    an error *)
Theorem C51_size_mismatch :
  forall (J C : matrix R), mwf J -> mwf C -> mrows C <> mcols C \/ mcols J <> mrows C ->
  propagate J C = Err ErrPlain.
Proof. exact propagate_mismatch. Qed.
Print Assumptions C51_size_mismatch.

(** C51: only the standard deviations of constrained refinable variables are
    overwritten, each with the error of its constraint *)
Theorem C51_fill_errors {T : Type} :
  forall (refvar : list (option nat)) (dvar sd : list T),
  length refvar = length sd -> (forall k, In (Some k) refvar -> k < length dvar) ->
  exists sd', fill_errors refvar dvar sd = Ok sd' /\ length sd' = length sd /\
    forall i r, nth_error refvar i = Some r ->
      nth_error sd' i = match r with Some k => nth_error dvar k | None => nth_error sd i end.
Proof. exact fill_errors_spec. Qed.
Print Assumptions C51_fill_errors.

Example C51_fill_case : fill_errors [None; Some 1; Some 0] [10; 20] [1; 2; 3] = Ok [1; 20; 10].
Proof. reflexivity. Qed.

Example C51_case : let J := mkMx 1 2 [1; 2]%R in let C := mkMx 2 2 [4; 0; 0; 9]%R in
  mwf J /\ mwf C /\ mrows C = mcols C /\ mcols J = mcols C.
Proof. repeat split. Qed.
