(** Model of template class matrix, src/extensions/libpdffit2/matrix.h.
    The buffer is the flat list [mdata]; every access is checked. *)
From Coq Require Import List Arith.
From Verif Require Import Base.
Import ListNotations.

Section Matrix.
Context {T : Type}.

(** models matrix.h:36-39; msize is the length of the buffer *)
Record matrix : Type := mkMx { mrows : nat; mcols : nat; mdata : list T }.

(** models matrix.h:44-46 *)
Definition mx_empty : matrix := mkMx 0 0 [].

(** models matrix.h:53-58, matrix(m, n) *)
Definition mx_new (zero : T) (m n : nat) : matrix := mkMx m n (repeat zero (m * n)).

(** models matrix.h:76-80, operator=(value) *)
Definition mx_fill (v : T) (a : matrix) : matrix :=
  mkMx (mrows a) (mcols a) (repeat v (length (mdata a))).

(** models matrix.h:127-134, operator[](i)[j] and operator()(i,j).  C++ checks
    nothing; an index outside the matrix is UB here even where the flat offset
    would still hit the buffer. *)
Definition mx_get (a : matrix) (i j : nat) : outcome T :=
  if ((i <? mrows a) && (j <? mcols a))%bool then rd (mdata a) (i * mcols a + j) else UB.
Definition mx_set (a : matrix) (i j : nat) (v : T) : outcome matrix :=
  if ((i <? mrows a) && (j <? mcols a))%bool then
    omap (mkMx (mrows a) (mcols a)) (wr (mdata a) (i * mcols a + j) v)
  else UB.

(** index pairs of two nested loops *)
Definition loop2 (m n : nat) : list (nat * nat) := list_prod (seq 0 m) (seq 0 n).

(** models matrix.h:81-99, resize; [offset = i*n] *)
Definition mx_resize (value : T) (a : matrix) (m n : nat) : outcome matrix :=
  if ((m =? mrows a) && (n =? mcols a))%bool then Ok a
  else
    omap (mkMx m n)
      (ofold (fun d '(i, j) => obind (mx_get a i j) (fun v => wr d (i * n + j) v))
             (loop2 (min m (mrows a)) (min n (mcols a)))
             (repeat value (m * n))).

(** models matrix.h:100-105 *)
Definition mx_clear (a : matrix) : matrix := mkMx 0 0 [].

(** models matrix.h:106-109, rowVector: copy of [mcols*i, mcols*(i+1)) *)
Definition mx_row (a : matrix) (i : nat) : outcome (list T) :=
  if (mcols a * (i + 1) <=? length (mdata a))
  then Ok (firstn (mcols a) (skipn (mcols a * i) (mdata a))) else UB.

(** models matrix.h:110-118, colVector: walks pt = mdata + j, pt += mcols *)
Fixpoint col_walk (d : list T) (cols : nat) (n pt : nat) : outcome (list T) :=
  match n with
  | O => Ok []
  | S n' => obind (rd d pt) (fun v => omap (cons v) (col_walk d cols n' (pt + cols)))
  end.
Definition mx_col (a : matrix) (j : nat) : outcome (list T) :=
  col_walk (mdata a) (mcols a) (mrows a) j.

(** models matrix.h:135-147, transposed: pt runs through the new buffer *)
Definition mx_transposed (zero : T) (a : matrix) : outcome matrix :=
  omap (fun '(d, _) => mkMx (mcols a) (mrows a) d)
    (ofold (fun '(d, pt) '(j, i) => obind (mx_get a i j) (fun v => omap (fun d' => (d', S pt)) (wr d pt v)))
           (loop2 (mcols a) (mrows a))
           (repeat zero (mcols a * mrows a), 0)).

(** models matrix.h:149-164, sd: pii = mdata; pii < mdata+msize; pii += mcols+1 *)
Fixpoint sd_walk (sqrt : T -> T) (fuel : nat) (a : matrix) (pii vii : nat) (v : list T) : outcome (list T) :=
  match fuel with
  | O => NoFuel
  | S f =>
      if pii <? length (mdata a) then
        obind (rd (mdata a) pii) (fun x => obind (wr v vii (sqrt x)) (fun v' =>
        sd_walk sqrt f a (pii + (mcols a + 1)) (S vii) v'))
      else Ok v
  end.
Definition mx_sd (zero : T) (sqrt : T -> T) (a : matrix) : outcome (list T) :=
  if negb (mcols a =? mrows a) then Err ErrPlain
  else sd_walk sqrt (S (length (mdata a))) a 0 0 (repeat zero (mcols a)).

(** models matrix.h:165-188, operator*; Cij is accumulated in a local instead
    of the cell *)
Definition mx_mul (zero : T) (add mul : T -> T -> T) (a b : matrix) : outcome matrix :=
  if negb (mcols a =? mrows b) then Err ErrPlain
  else
    omap (mkMx (mrows a) (mcols b))
      (ofold (fun d '(i, j) =>
          obind (ofold (fun c k => obind (mx_get a i k) (fun x => obind (mx_get b k j) (fun y =>
                          Ok (add c (mul x y)))))
                       (seq 0 (mcols a)) zero)
                (fun c => wr d (i * mcols b + j) c))
        (loop2 (mrows a) (mcols b))
        (repeat zero (mrows a * mcols b))).

End Matrix.
Arguments matrix T : clear implicits.
