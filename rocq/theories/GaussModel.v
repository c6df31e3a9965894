(** Model of gaussj (gaussj.cc:31-112) and covsrt (pdflsmin.cc:305-324).
    Matrices passed as double** are functions of two 1-based indices; doubles
    are real numbers, so rounding, NaN and infinities are left out. *)
From Coq Require Import List Arith Reals Bool.
From Verif Require Import Base.
Import ListNotations.
Local Open Scope R_scope.

Definition fmat : Type := nat -> nat -> R.

(** a[i][j] = v *)
Definition mset (a : fmat) (i j : nat) (v : R) : fmat :=
  fun i' j' => if ((i' =? i) && (j' =? j))%nat%bool then v else a i' j'.

(** v[i] = x for an int array *)
Definition vset (f : nat -> nat) (i x : nat) : nat -> nat :=
  fun i' => if (i' =? i)%nat then x else f i'.

(** for (l ...) s = body(l, s) *)
Definition loop {S} (l : list nat) (body : nat -> S -> S) (s : S) : S :=
  fold_left (fun s i => body i s) l s.

(** l=1..n *)
Definition up (n : nat) : list nat := seq 1 n.

(** std::swap(a[i][j], a[i2][j2]) *)
Definition mswap (a : fmat) (i j i2 j2 : nat) : fmat :=
  mset (mset a i j (a i2 j2)) i2 j2 (a i j).

(** models gaussj.cc:47-66, search for the pivot; state is big, irow, icol *)
Definition search (n : nat) (a : fmat) (ipiv : nat -> nat) (irow icol : nat) : R * nat * nat :=
  loop (up n) (fun j s =>
    if (ipiv j =? 1)%nat then s else
    loop (up n) (fun k (s : R * nat * nat) =>
      if (ipiv k =? 0)%nat then
        let '(big, _, _) := s in
        if Rle_dec big (Rabs (a j k)) then (Rabs (a j k), j, k) else s
      else s) s) (0, irow, icol).

(** the variables of gaussj that live across the iterations of the main loop *)
Record gstate : Type := mkG {
  ga : fmat; gb : fmat; gpiv : nat -> nat; girow : nat; gicol : nat;
  gindxr : nat -> nat; gindxc : nat -> nat }.

(** models gaussj.cc:75-78, exchange of the pivot row *)
Definition swap_rows (cnt : nat) (a : fmat) (irow icol : nat) : fmat :=
  loop (up cnt) (fun l a => mswap a irow l icol l) a.

(** models gaussj.cc:92 or 93, division of the pivot row *)
Definition scale_row (cnt : nat) (a : fmat) (icol : nat) (pivinv : R) : fmat :=
  loop (up cnt) (fun l a => mset a icol l (a icol l * pivinv)) a.

(** models gaussj.cc:98 or 99 *)
Definition reduce_row (cnt : nat) (a : fmat) (ll icol : nat) (dum : R) : fmat :=
  loop (up cnt) (fun l a => mset a ll l (a ll l - a icol l * dum)) a.

(** models gaussj.cc:94-100 *)
Definition reduce (n m : nat) (ab : fmat * fmat) (icol : nat) : fmat * fmat :=
  loop (up n) (fun ll ab =>
    if (ll =? icol)%nat then ab else
    let (a, b) := ab : fmat * fmat in
    let dum := a ll icol in
    let a := mset a ll icol 0 in
    (reduce_row n a ll icol dum, reduce_row m b ll icol dum)) ab.

(** models gaussj.cc:45-101, one pass of the main loop *)
Definition gstep (n m : nat) (s : gstate) (i : nat) : outcome gstate :=
  let '(_, irow, icol) := search n (ga s) (gpiv s) (girow s) (gicol s) in
  let ipiv := vset (gpiv s) icol (S (gpiv s icol)) in
  let a := if (irow =? icol)%nat then ga s else swap_rows n (ga s) irow icol in
  let b := if (irow =? icol)%nat then gb s else swap_rows m (gb s) irow icol in
  let indxr := vset (gindxr s) i irow in
  let indxc := vset (gindxc s) i icol in
  if (icol =? 0)%nat then Err ErrCalculation
  else if Req_EM_T (a icol icol) 0 then Err ErrCalculation
  else
    let pivinv := 1 / a icol icol in
    let a := mset a icol icol 1 in
    let a := scale_row n a icol pivinv in
    let b := scale_row m b icol pivinv in
    let (a, b) := reduce n m (a, b) icol in
    Ok (mkG a b ipiv irow icol indxr indxc).

(** models gaussj.cc:105-109 *)
Definition unscramble (n : nat) (a : fmat) (indxr indxc : nat -> nat) : fmat :=
  loop (rev (up n)) (fun l a =>
    if (indxr l =? indxc l)%nat then a else
    loop (up n) (fun k a => mswap a k (indxr l) k (indxc l)) a) a.

(** models gaussj.cc:31-113.  The freshly allocated index arrays are not read
    before they are written (gaussj.cc:44, 80, 83); they start as 0 here.  The
    memory leaked by the exception is not modelled. *)
Definition gaussj (n m : nat) (a b : fmat) : outcome (fmat * fmat) :=
  omap (fun s => (unscramble n (ga s) (gindxr s) (gindxc s), gb s))
    (ofold (gstep n m) (up n) (mkG a b (fun _ => O) 0 0 (fun _ => O) (fun _ => O))).

(** models pdflsmin.cc:308-314, zeros outside the compact part *)
Definition covsrt_clear (a : fmat) (ma mfit : nat) : fmat :=
  loop (seq (S mfit) (ma - mfit)) (fun i a =>
    loop (up i) (fun j a => mset (mset a j i 0) i j 0) a) a.

(** models pdflsmin.cc:315-323 *)
Definition covsrt_spread (a : fmat) (ma : nat) (ia : nat -> bool) (mfit : nat) : fmat * nat :=
  loop (rev (up ma)) (fun j s =>
    if ia j then
      let (a, k) := s : fmat * nat in
      let a := loop (up ma) (fun i a => mswap a i k i j) a in
      let a := loop (up ma) (fun i a => mswap a k i j i) a in
      (a, (k - 1)%nat)
    else s) (a, mfit).

(** models pdflsmin.cc:305-324 covsrt; [k--] below 1 is not reached because
    mfit counts the true flags *)
Definition covsrt (a : fmat) (ma : nat) (ia : nat -> bool) (mfit : nat) : fmat :=
  fst (covsrt_spread (covsrt_clear a ma mfit) ma ia mfit).
