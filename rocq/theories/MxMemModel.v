(** Model of the memory of matrix objects (matrix.h:41-105): which buffers they
    hold, when these are made and deleted.  The values are those of MatrixModel. *)
From Coq Require Import List Arith Bool.
From Verif Require Import Base MatrixModel.
Import ListNotations.

Section Mem.
Context {T : Type}.
Variable zero : T.

(** matrix.h:48,56,69,84: buffers in the order of their new T[n]; None after delete[] *)
Definition bufs : Type := list (option (list T)).
(** models matrix.h:36-39, the fields of an object; mdata is NULL or a buffer *)
Record mobj : Type := mkMo { o_data : option nat; o_rows : nat; o_cols : nat; o_size : nat }.
(** matrix.h:29-39: the objects in the order of their construction; None after destruction *)
Record mworld : Type := mkMw { w_bufs : bufs; w_objs : list (option mobj) }.

(** delete[] p, matrix.h:62,68,94,102 *)
Definition del (h : bufs) (p : option nat) : outcome bufs :=
  match p with
  | None => Ok h
  | Some b => match nth_error h b with Some (Some _) => Ok (upd b None h) | _ => UB end
  end.
(** the n elements from p on, as std::copy reads them, matrix.h:51,70 *)
Definition read_n (h : bufs) (p : option nat) (n : nat) : outcome (list T) :=
  match n, p with
  | O, _ => Ok []
  | _, None => UB
  | _, Some b =>
      match nth_error h b with
      | Some (Some d) => if n <=? length d then Ok (firstn n d) else UB
      | _ => UB
      end
  end.
(** writing d at the beginning of the buffer p, matrix.h:78,131-134 *)
Definition write_n (h : bufs) (p : option nat) (d : list T) : outcome bufs :=
  match d, p with
  | [], _ => Ok h
  | _, None => UB
  | _, Some b =>
      match nth_error h b with
      | Some (Some e) => if length d <=? length e then Ok (upd b (Some (d ++ skipn (length d) e)) h) else UB
      | _ => UB
      end
  end.
(** matrix.h:48,51,56-57,69-70,84-85: new T[n] filled with d by std::copy or std::fill; elements not written are
    not defined, here [zero] *)
Definition new_copy (h : bufs) (n : nat) (d : list T) : outcome (bufs * option nat) :=
  if length d <=? n then Ok (h ++ [Some (d ++ repeat zero (n - length d))], Some (length h)) else UB.

(** matrix.h:65,81,100: the object a member function is called for *)
Definition obj (w : mworld) (k : nat) : outcome mobj :=
  match nth_error (w_objs w) k with Some (Some o) => Ok o | _ => UB end.

(** what a program does with its matrices, matrix.h:44-105,131-134 *)
Inductive mop : Type :=
| MDefault                              (* matrix a; *)
| MSized (m n : nat)                    (* matrix a(m, n); *)
| MCopy (s : nat)                       (* matrix a(s); *)
| MAssign (k s : nat)                   (* k = s; *)
| MFill (k : nat) (v : T)               (* k = v; *)
| MResize (k m n : nat) (v : T)         (* k.resize(m, n, v); *)
| MClear (k : nat)                      (* k.clear(); *)
| MPut (k i j : nat) (v : T)            (* k(i, j) = v; *)
| MDestroy (k : nat).                   (* end of the life of k *)

(** one operation, line by line as cited in each case *)
Definition mstep (w : mworld) (op : mop) : outcome mworld :=
  let h := w_bufs w in
  let os := w_objs w in
  match op with
  | MDefault => (* models matrix.h:44-46 *)
      Ok (mkMw h (os ++ [Some (mkMo None 0 0 0)]))
  | MSized m n => (* models matrix.h:53-58 *)
      obind (new_copy h (m * n) (repeat zero (m * n))) (fun '(h, p) =>
      Ok (mkMw h (os ++ [Some (mkMo p m n (m * n))])))
  | MCopy s => (* models matrix.h:47-52 *)
      obind (obj w s) (fun o =>
      obind (read_n h (o_data o) (o_size o)) (fun d =>
      obind (new_copy h (o_rows o * o_cols o) d) (fun '(h, p) =>
      Ok (mkMw h (os ++ [Some (mkMo p (o_rows o) (o_cols o) (o_size o))])))))
  | MAssign k s => (* models matrix.h:65-75 *)
      obind (obj w k) (fun o => obind (obj w s) (fun src =>
      if k =? s then Ok w
      else
        obind (del h (o_data o)) (fun h =>
        obind (read_n h (o_data src) (o_size src)) (fun d =>
        obind (new_copy h (o_size src) d) (fun '(h, p) =>
        Ok (mkMw h (upd k (Some (mkMo p (o_rows src) (o_cols src) (o_size src))) os)))))))
  | MFill k v => (* models matrix.h:76-80 *)
      obind (obj w k) (fun o =>
      obind (write_n h (o_data o) (repeat v (o_size o))) (fun h => Ok (mkMw h os)))
  | MResize k m n v => (* models matrix.h:81-99; the elements moved are those of mx_resize *)
      obind (obj w k) (fun o =>
      if (m =? o_rows o) && (n =? o_cols o) then Ok w
      else
        obind (read_n h (o_data o) (o_size o)) (fun d =>
        obind (mx_resize v (mkMx (o_rows o) (o_cols o) d) m n) (fun a =>
        obind (new_copy h (m * n) (mdata a)) (fun '(h, p) =>
        obind (del h (o_data o)) (fun h =>
        Ok (mkMw h (upd k (Some (mkMo p m n (m * n))) os)))))))
  | MClear k => (* models matrix.h:100-105 *)
      obind (obj w k) (fun o =>
      obind (del h (o_data o)) (fun h =>
      Ok (mkMw h (upd k (Some (mkMo None 0 0 0)) os))))
  | MPut k i j v => (* models matrix.h:131-134 *)
      obind (obj w k) (fun o =>
      obind (read_n h (o_data o) (o_size o)) (fun d =>
      obind (mx_set (mkMx (o_rows o) (o_cols o) d) i j v) (fun a =>
      obind (write_n h (o_data o) (mdata a)) (fun h => Ok (mkMw h os)))))
  | MDestroy k => (* models matrix.h:59-63 *)
      obind (obj w k) (fun o =>
      obind (del h (o_data o)) (fun h => Ok (mkMw h (upd k None os))))
  end.

(** models matrix.h:131-134, reading *)
Definition mread (w : mworld) (k i j : nat) : outcome T :=
  obind (obj w k) (fun o => obind (read_n (w_bufs w) (o_data o) (o_size o)) (fun d =>
  mx_get (mkMx (o_rows o) (o_cols o) d) i j)).
End Mem.
Arguments mop T : clear implicits.
Arguments mworld T : clear implicits.
Arguments bufs T : clear implicits.
