(** Model of the constraint table of class Fit (fit.cc:563-701). *)
From Coq Require Import List ZArith Ascii Bool.
From Verif Require Import Base ParamModel ParserModel MatrixModel.
Import ListNotations.

(** models pdffit.h:59 enum FCON *)
Inductive fcon : Type := USER | IDENT | FCOMP | FSQR.

Section Con.
Context {T : Type} (N : numops T) (builtins : list (builtin T)).

(** models pdffit.h:168-175: one element of the parallel vectors var, form,
    idef, ctype, vref.  [cvar] stands for the address of the variable.  The
    vector fconstraint is left out: no binding in misc.cc passes a C function,
    so it only ever holds NULL and fit.cc:657-670 is not reached. *)
Record centry : Type := mkCon {
  cvar : nat; cform : text; cidef : Z; ctype : fcon; cref : bool }.

(** the parts of Fit and of the program memory involved: parameter table,
    constraints, dvdp (pdffit.h:180) and the variables themselves *)
Record cstate : Type := mkCst {
  ctab : ptab T; cons_ : list centry; cdvdp : matrix T; cmem : nat -> T }.

(** state after construction or reset, pdffit.cc:103-128 *)
Definition cinit (mem : nat -> T) : cstate := mkCst ptab_init [] mx_empty mem.

Definition mem_set (m : nat -> T) (a : nat) (v : T) : nat -> T :=
  fun b => if (b =? a)%nat then v else m b.

(** std::find over var *)
Fixpoint find_var (a : nat) (l : list centry) : option nat :=
  match l with
  | [] => None
  | e :: r => if (cvar e =? a)%nat then Some O else option_map S (find_var a r)
  end.

(** models fit.cc:563-572 Fit::vfind; None is -1 *)
Definition vfind (l : list centry) (a : nat) : option nat :=
  match find_var a l with
  | None => None
  | Some i => match nth_error l i with
              | Some e => if cref e then Some i else None
              | None => None
              end
  end.

(** models fit.cc:575-597 Fit::constrain with all arguments *)
Definition constrain (s : cstate) (a : nat) (form : text) (ipar : Z) (ty : fcon) : cstate :=
  let e := mkCon a form ipar ty true in
  match vfind (cons_ s) a with
  | Some i => mkCst (ctab s) (upd i e (cons_ s)) (cdvdp s) (cmem s)
  | None => mkCst (ctab s) (cons_ s ++ [e]) (cdvdp s) (cmem s)
  end.

(** models fit.cc:599-602, constrain to a formula *)
Definition constrain_str (s : cstate) (a : nat) (form : text) : cstate :=
  constrain s a form (-1) USER.

(** models fit.cc:611-625 and misc.cc:694-700: an integer type, 0 meaning IDENT;
    other values than 1, 2, 3 raise constraintError *)
Definition constrain_int (s : cstate) (a : nat) (ipar : Z) (ftype : Z) : cstate * outcome unit :=
  if Z.eqb ftype 0 || Z.eqb ftype 1 then (constrain s a [] ipar IDENT, Ok tt)
  else if Z.eqb ftype 2 then (constrain s a [] ipar FCOMP, Ok tt)
  else if Z.eqb ftype 3 then (constrain s a [] ipar FSQR, Ok tt)
  else (s, Err ErrConstraint).

(** vref[i] = b *)
Definition set_ref (i : nat) (b : bool) (l : list centry) : list centry :=
  match nth_error l i with
  | Some e => upd i (mkCon (cvar e) (cform e) (cidef e) (ctype e) b) l
  | None => l
  end.

(** models fit.cc:645-656: the loop over used[iu].  Returns vref[i] and dvdp. *)
Fixpoint store_derivs (t : ptab T) (i : nat) (used : list nat) (d : list T) (iu : nat)
    (r : bool) (m : matrix T) : outcome (bool * matrix T) :=
  match used with
  | [] => Ok (r, m)
  | k :: us =>
      obind (rd (pfree t) k) (fun free : bool =>
      if free then
        obind (rd d iu) (fun x => obind (mx_set m i k x) (fun m' =>
        store_derivs t i us d (S iu) true m'))
      else store_derivs t i us d (S iu) r m)
  end.

(** models fit.cc:631-699, one pass of the loop of Fit::fill_variables; on an
    exception the assignments made so far remain *)
Definition fill_one (s : cstate) (i : nat) : cstate * outcome unit :=
  match nth_error (cons_ s) i with
  | None => (s, UB)
  | Some e =>
      let l0 := set_ref i false (cons_ s) in
      let s0 := mkCst (ctab s) l0 (cdvdp s) (cmem s) in
      match cform e with
      | _ :: _ =>
          match parse N builtins (ctab s) (cform e) with
          | Ok (v, d, used) =>
              let mem := mem_set (cmem s) (cvar e) v in
              match store_derivs (ctab s) i used d 0 false (cdvdp s) with
              | Ok (r, m) => (mkCst (ctab s) (set_ref i r (cons_ s)) m mem, Ok tt)
              | Err x => (s0, Err x)
              | UB => (s0, UB)
              | NoFuel => (s0, NoFuel)
              end
          | Err x => (s0, Err x)
          | UB => (s0, UB)
          | NoFuel => (s0, NoFuel)
          end
      | [] =>
          match parfind (ctab s) (cidef e) with
          | None => (s0, Err ErrConstraint)
          | Some k =>
              match nth_error (pfree (ctab s)) k, nth_error (pval (ctab s)) k with
              | Some free, Some p =>
                  let l1 := set_ref i free (cons_ s) in
                  let assign v dv :=
                    match mx_set (cdvdp s) i k dv with
                    | Ok m => (mkCst (ctab s) l1 m (mem_set (cmem s) (cvar e) v), Ok tt)
                    | _ => (s0, UB)
                    end in
                  match ctype e with
                  | IDENT => assign p (n_one N)
                  | FCOMP => assign (n_sub N (n_one N) p) (n_opp N (n_one N))
                  | FSQR => assign (n_mul N p p) (n_mul N (n_add N (n_one N) (n_one N)) p)
                  | USER => (mkCst (ctab s) l1 (cdvdp s) (cmem s), Ok tt)
                  end
              | _, _ => (s0, UB)
              end
          end
      end
  end.

Fixpoint fill_loop (s : cstate) (n i : nat) : cstate * outcome unit :=
  match n with
  | O => (s, Ok tt)
  | S n' => let (s', r) := fill_one s i in
            match r with Ok _ => fill_loop s' n' (S i) | _ => (s', r) end
  end.

(** models fit.cc:627-701 Fit::fill_variables *)
Definition fill_variables (s : cstate) : cstate * outcome unit :=
  match mx_resize (n_zero N) (cdvdp s) (length (cons_ s)) (length (pval (ctab s))) with
  | Ok m => fill_loop (mkCst (ctab s) (cons_ s) m (cmem s)) (length (cons_ s)) 0
  | Err x => (s, Err x)
  | UB => (s, UB)
  | NoFuel => (s, NoFuel)
  end.

(** calls that touch this state.  CCalc stands for the start of fit_theory
    (fit.cc:309), i.e. for every calculation. *)
Inductive cop : Type :=
| CPar (o : pop T)
| CStr (a : nat) (form : text)
| CInt (a : nat) (ipar ftype : Z)
| CSetVar (a : nat) (v : T)
| CCalc.

Definition cstep (s : cstate) (o : cop) : cstate * outcome unit :=
  match o with
  | CPar p => (mkCst (fst (pstep (ctab s) p)) (cons_ s) (cdvdp s) (cmem s), Ok tt)
  | CStr a f => (constrain_str s a f, Ok tt)
  | CInt a n ty => constrain_int s a n ty
  | CSetVar a v => (mkCst (ctab s) (cons_ s) (cdvdp s) (mem_set (cmem s) a v), Ok tt)
  | CCalc => fill_variables s
  end.

Definition crun (s : cstate) (h : list cop) : cstate :=
  fold_left (fun s o => fst (cstep s o)) h s.

End Con.
Arguments cstate T : clear implicits.
Arguments cop T : clear implicits.
