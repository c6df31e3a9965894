(** Specification vocabulary for matrix objects: programs on plain values. *)
From Coq Require Import List Arith Bool.
From Verif Require Import Base MatrixModel MxMemModel.
Import ListNotations.

Section Spec.
Context {T : Type}.
Variable zero : T.

(** a value is a table of numbers; None for an object that is gone *)
Record table : Type := mkTb { t_rows : nat; t_cols : nat; t_at : nat -> nat -> T }.
Definition tables : Type := list (option table).
Definition val (A : tables) (k : nat) : option table := match nth_error A k with Some (Some a) => Some a | _ => None end.

(** what each operation means for the values; None for a program that uses an
    object that does not exist or an element outside *)
Definition tstep (A : tables) (op : mop T) : option tables :=
  let set k (f : table -> table) := match val A k with Some a => Some (upd k (Some (f a)) A) | None => None end in
  match op with
  | MDefault => Some (A ++ [Some (mkTb 0 0 (fun _ _ => zero))])
  | MSized m n => Some (A ++ [Some (mkTb m n (fun _ _ => zero))])
  | MCopy s => match val A s with Some a => Some (A ++ [Some a]) | None => None end
  | MAssign k s => match val A s with Some b => set k (fun _ => b) | None => None end
  | MFill k v => set k (fun a => mkTb (t_rows a) (t_cols a) (fun _ _ => v))
  | MResize k m n v => set k (fun a => mkTb m n (fun i j => if (i <? t_rows a) && (j <? t_cols a) then t_at a i j else v))
  | MClear k => set k (fun _ => mkTb 0 0 (fun _ _ => zero))
  | MPut k i j v =>
      match val A k with
      | Some a => if (i <? t_rows a) && (j <? t_cols a)
                  then Some (upd k (Some (mkTb (t_rows a) (t_cols a) (fun i' j' => if (i' =? i) && (j' =? j) then v else t_at a i' j'))) A)
                  else None
      | None => None
      end
  | MDestroy k => match val A k with Some _ => Some (upd k None A) | None => None end
  end.
Fixpoint trun (A : tables) (ops : list (mop T)) : option tables :=
  match ops with
  | [] => Some A
  | op :: r => match tstep A op with Some A' => trun A' r | None => None end
  end.

(** the run of a program *)
Definition mrun (ops : list (mop T)) : outcome (mworld T) := ofold (mstep zero) ops (mkMw [] []).
End Spec.
Arguments table T : clear implicits.
Arguments tables T : clear implicits.
