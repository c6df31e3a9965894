(** Specification of constraint formulas: the usual arithmetic grammar, relating
    a text to an expression tree, and the meaning of trees.  Independent of how
    the parser rewrites its text and of its stacks. *)
From Coq Require Import List ZArith Ascii String Bool.
From Verif Require Import Base ParamModel ParserModel.
Import ListNotations.
Local Open Scope char_scope.

(** formula trees; numbers are m*10^e, parameters are named by id *)
Inductive fexp : Type :=
| ELit (m e : Z)
| EPar (n : Z)
| ENeg (a : fexp)
| EBin (op : ascii) (a b : fexp)
| ECall (f : text) (a : fexp).

Definition blank (w : text) : Prop := Forall (fun c => is_space c = true) w.
Definition digits (d : text) : Prop := Forall (fun c => is_digit c = true) d.

(** value of a decimal digit string, most significant first *)
Fixpoint decval_acc (a : Z) (d : text) : Z :=
  match d with
  | [] => a
  | c :: r => decval_acc (10 * a + (Z.of_nat (nat_of_ascii c) - 48))%Z r
  end.
Definition decval (d : text) : Z := decval_acc 0 d.

(** decimal numbers: 12, 1.5, .5, 2., each with optional exponent e-3 *)
Inductive expo : text -> Z -> Prop :=
| ex_none : expo [] 0
| ex_plain c d : c = "e" \/ c = "E" -> digits d -> d <> [] -> expo (c :: d) (decval d)
| ex_plus c d : c = "e" \/ c = "E" -> digits d -> d <> [] -> expo (c :: "+" :: d) (decval d)
| ex_minus c d : c = "e" \/ c = "E" -> digits d -> d <> [] -> expo (c :: "-" :: d) (- decval d).

Inductive numeral : text -> Z -> Z -> Prop :=
| nu_int d ex e : digits d -> d <> [] -> expo ex e -> numeral (d ++ ex) (decval d) e
| nu_dot d1 d2 ex e : digits d1 -> digits d2 -> d1 ++ d2 <> [] -> expo ex e ->
    numeral (d1 ++ "." :: d2 ++ ex) (decval (d1 ++ d2)) (e - Z.of_nat (List.length d2)).

(** function names: lower case letters *)
Definition fname (f : text) : Prop := f <> [] /\ Forall (fun c => In c (chars "abcdefghijklmnopqrstuvwxyz")) f.

(** factors, terms, expressions; * and / before + and -, left to right *)
Inductive gfac : text -> fexp -> Prop :=
| g_num w s m e w' : blank w -> blank w' -> numeral s m e -> gfac (w ++ s ++ w') (ELit m e)
| g_par w d w' : blank w -> blank w' -> digits d -> d <> [] -> (decval d <= 2147483647)%Z ->
    gfac (w ++ "@" :: d ++ w') (EPar (decval d))
| g_neg w l e : blank w -> gfac l e -> gfac (w ++ "-" :: l) (ENeg e)
| g_pos w l e : blank w -> gfac l e -> gfac (w ++ "+" :: l) e
| g_brk w l e w' : blank w -> blank w' -> gexp l e -> gfac (w ++ "(" :: l ++ ")" :: w') e
| g_call w f l e w' : blank w -> blank w' -> fname f -> gexp l e ->
    gfac (w ++ f ++ "(" :: l ++ ")" :: w') (ECall f e)
with gterm : text -> fexp -> Prop :=
| g_fac l e : gfac l e -> gterm l e
| g_mul l1 e1 c l2 e2 : gterm l1 e1 -> c = "*" \/ c = "/" -> gfac l2 e2 ->
    gterm (l1 ++ c :: l2) (EBin c e1 e2)
with gexp : text -> fexp -> Prop :=
| g_term l e : gterm l e -> gexp l e
| g_add l1 e1 c l2 e2 : gexp l1 e1 -> c = "+" \/ c = "-" -> gterm l2 e2 ->
    gexp (l1 ++ c :: l2) (EBin c e1 e2).

(** parameter ids occurring in a tree *)
Fixpoint pars (e : fexp) : list Z :=
  match e with
  | ELit _ _ => []
  | EPar n => [n]
  | ENeg a => pars a
  | EBin _ a b => pars a ++ pars b
  | ECall _ a => pars a
  end.

Section Meaning.
Context {T : Type} (N : numops T) (builtins : list (builtin T)).

(** value of a tree: undefined parameters, unknown functions and numbers out of
    range have none *)
Fixpoint ev (env : Z -> option T) (e : fexp) : option T :=
  match e with
  | ELit m x => n_lit N m x
  | EPar n => env n
  | ENeg a => option_map (n_opp N) (ev env a)
  | EBin c a b =>
      match ev env a, ev env b with
      | Some x, Some y =>
          if Ascii.eqb c "+" then Some (n_add N x y)
          else if Ascii.eqb c "-" then Some (n_sub N x y)
          else if Ascii.eqb c "*" then Some (n_mul N x y)
          else if Ascii.eqb c "/" then Some (n_div N x y) else None
      | _, _ => None
      end
  | ECall f a =>
      match find_builtin builtins f, ev env a with
      | Some b, Some x => Some (bfun b x)
      | _, _ => None
      end
  end.

(** the parameter values as [getpar] reports them *)
Definition env_of (t : ptab T) (n : Z) : option T :=
  match getpar t n with Ok v => Some v | _ => None end.

End Meaning.
