(** Model of the arrays with arbitrary lower subscripts (nrutil.cc:24-120), used
    for the work arrays of the least squares. *)
From Coq Require Import List ZArith Reals Bool.
From Verif Require Import Base.
Import ListNotations.
Local Open Scope Z_scope.

(** Memory: blocks given out by malloc, in the order of the calls.  A pointer is a
    block and a number of elements from its beginning; sizes count elements. *)
Inductive ptr : Type := Null | At (b : nat) (o : Z).
Inductive cell : Type := CUndef | CVal (x : R) | CPtr (p : ptr).
Record block : Type := mkBlk { bk_live : bool; bk_cells : list cell }.
Definition heap : Type := list block.
Definition blk_size (B : block) : Z := Z.of_nat (length (bk_cells B)).

(** malloc; it does not fail here, so nrerror (nrutil.cc:29-36) is not reached *)
Definition malloc (h : heap) (n : Z) : heap * ptr :=
  (h ++ [mkBlk true (repeat CUndef (Z.to_nat n))], At (length h) 0).

(** free: only what malloc returned, and once *)
Definition mfree (h : heap) (p : ptr) : outcome heap :=
  match p with
  | Null => Ok h
  | At b o =>
      match nth_error h b with
      | Some B => if bk_live B && (o =? 0) then Ok (upd b (mkBlk false (bk_cells B)) h) else UB
      | None => UB
      end
  end.

(** p + k.  By the C++ standard the result must lie in the array or just past its
    end ([strict]); on a machine with plain addresses it may be anything as long as
    it is not used. *)
Definition padd (strict : bool) (h : heap) (p : ptr) (k : Z) : outcome ptr :=
  match p with
  | Null => if k =? 0 then Ok Null else UB
  | At b o =>
      match nth_error h b with
      | Some B => if strict && negb ((0 <=? o + k) && (o + k <=? blk_size B)) then UB else Ok (At b (o + k))
      | None => UB
      end
  end.

(** *p and *p = c *)
Definition load (h : heap) (p : ptr) : outcome cell :=
  match p with
  | Null => UB
  | At b o =>
      match nth_error h b with
      | Some B => if bk_live B && (0 <=? o) then rd (bk_cells B) (Z.to_nat o) else UB
      | None => UB
      end
  end.
Definition store (h : heap) (p : ptr) (c : cell) : outcome heap :=
  match p with
  | Null => UB
  | At b o =>
      match nth_error h b with
      | Some B =>
          if bk_live B && (0 <=? o)
          then obind (wr (bk_cells B) (Z.to_nat o) c) (fun l => Ok (upd b (mkBlk true l) h))
          else UB
      | None => UB
      end
  end.

(** *p where a pointer is kept *)
Definition loadp (h : heap) (p : ptr) : outcome ptr :=
  obind (load h p) (fun c => match c with CPtr q => Ok q | _ => UB end).

(** models nrutil.cc:24-27 *)
Definition nr_end : Z := 1.

(** models nrutil.cc:38-58, _vector, dvector and ivector *)
Definition vector (strict : bool) (nl nh : Z) (h : heap) : outcome (heap * ptr) :=
  if nh <? nl then Ok (h, Null)
  else
    let (h, v) := malloc h (nh - nl + 1 + nr_end) in
    obind (padd strict h v (- nl)) (fun p => omap (pair h) (padd strict h p nr_end)).

(** models nrutil.cc:60-78, _free_vector, free_dvector and free_ivector *)
Definition free_vector (strict : bool) (v : ptr) (nl nh : Z) (h : heap) : outcome heap :=
  if nh <? nl then Ok h
  else obind (padd strict h v nl) (fun p => obind (padd strict h p (- nr_end)) (mfree h)).

(** models nrutil.cc:97, for(i=nrl+1;i<=nrh;i++) *)
Definition row_indices (nrl nrh : Z) : list Z :=
  map (fun k => nrl + 1 + Z.of_nat k) (seq 0 (Z.to_nat (nrh - nrl))).

(** models nrutil.cc:80-106, _matrix and dmatrix *)
Definition matrix (strict : bool) (nrl nrh ncl nch : Z) (h : heap) : outcome (heap * ptr) :=
  let nrow := nrh - nrl + 1 in
  let ncol := nch - ncl + 1 in
  if (nrh <? nrl) || (nch <? ncl) then Ok (h, Null)
  else
    let (h, m) := malloc h (nrow + nr_end) in
    obind (padd strict h m nr_end) (fun m =>
    obind (padd strict h m (- nrl)) (fun m =>
    let (h, d) := malloc h (nrow * ncol + nr_end) in
    obind (padd strict h m nrl) (fun slot =>
    obind (store h slot (CPtr d)) (fun h =>
    obind (loadp h slot) (fun q => obind (padd strict h q nr_end) (fun q =>
    obind (store h slot (CPtr q)) (fun h =>
    obind (loadp h slot) (fun q => obind (padd strict h q (- ncl)) (fun q =>
    obind (store h slot (CPtr q)) (fun h =>
    omap (fun h => (h, m))
      (ofold (fun h i =>
                obind (padd strict h m (i - 1)) (fun a =>
                obind (loadp h a) (fun q =>
                obind (padd strict h q ncol) (fun q =>
                obind (padd strict h m i) (fun b => store h b (CPtr q))))))
             (row_indices nrl nrh) h))))))))))).

(** models nrutil.cc:108-120, _free_matrix and free_dmatrix *)
Definition free_matrix (strict : bool) (m : ptr) (nrl nrh ncl nch : Z) (h : heap) : outcome heap :=
  if (nrh <? nrl) || (nch <? ncl) then Ok h
  else
    obind (padd strict h m nrl) (fun slot =>
    obind (loadp h slot) (fun q =>
    obind (padd strict h q ncl) (fun q =>
    obind (padd strict h q (- nr_end)) (fun q =>
    obind (mfree h q) (fun h =>
    obind (padd strict h m nrl) (fun p =>
    obind (padd strict h p (- nr_end)) (mfree h))))))).

(** v[i] and m[i][j] as used in gaussj.cc and pdflsmin.cc: the place they name *)
Definition vec_at (strict : bool) (h : heap) (v : ptr) (i : Z) : outcome ptr := padd strict h v i.
Definition mat_at (strict : bool) (h : heap) (m : ptr) (i j : Z) : outcome ptr :=
  obind (padd strict h m i) (fun a => obind (loadp h a) (fun q => padd strict h q j)).
