(** Specification vocabulary for constraints. *)
From Coq Require Import List ZArith Ascii Bool Reals.
From Verif Require Import Base ParamModel ParserModel ParserSpec MathSpec ConModel.
Import ListNotations.

(** a constraint as the user means it: a formula (text and its tree) or one of
    the three fixed forms of a single parameter *)
Inductive pkind : Type := KIdent | KComp | KSqr.
Inductive con : Type :=
| KForm (line : text) (e : fexp)
| KPar (k : pkind) (n : Z).

(** well-formed constraints: non-empty grammatical formulas of length below 2^31 *)
Definition con_ok (c : con) : Prop :=
  match c with
  | KForm line e => line <> [] /\ gexp line e /\ (Z.of_nat (List.length line) <= 2147483647)%Z
  | KPar _ _ => True
  end.

Definition con_pars (c : con) : list Z :=
  match c with KForm _ e => pars e | KPar _ n => [n] end.

Section Spec.
Context {T : Type} (N : numops T) (builtins : list (builtin T)).

(** value of a constraint for given parameter values *)
Definition con_val (env : Z -> option T) (c : con) : option T :=
  match c with
  | KForm _ e => ev N builtins env e
  | KPar k n =>
      match env n with
      | None => None
      | Some p => Some match k with
                       | KIdent => p
                       | KComp => n_sub N (n_one N) p
                       | KSqr => n_mul N p p
                       end
      end
  end.

(** free flag of a parameter as fixpar/freepar left it *)
Definition is_free (t : ptab T) (n : Z) : bool :=
  match parfind t n with
  | Some k => match nth_error (pfree t) k with Some b => b | None => false end
  | None => false
  end.

(** a table entry holding a given constraint of a given variable *)
Definition holds (e : centry) (ac : nat * con) : Prop :=
  cvar e = fst ac /\
  match snd ac with
  | KForm line tr => cform e = line
  | KPar k n => cform e = [] /\ cidef e = n /\
                ctype e = match k with KIdent => IDENT | KComp => FCOMP | KSqr => FSQR end
  end.

(** the table holds exactly these constraints in this order *)
Definition table (s : cstate T) (cs : list (nat * con)) : Prop :=
  Forall2 holds (cons_ s) cs /\ Forall (fun ac => con_ok (snd ac)) cs.

(** the last constraint listed for a variable *)
Fixpoint last_con (a : nat) (cs : list (nat * con)) : option con :=
  match cs with
  | [] => None
  | (b, c) :: r => match last_con a r with
                   | Some c' => Some c'
                   | None => if (b =? a)%nat then Some c else None
                   end
  end.

(** the last constrain call for a variable; histories most recent first.
    Calls with an unknown type are rejected and do not count. *)
Inductive carg : Type := AStr (f : text) | AInt (n ty : Z).
Fixpoint latest (a : nat) (h : list (cop T)) : option carg :=
  match h with
  | [] => None
  | CStr b f :: r => if (b =? a)%nat then Some (AStr f) else latest a r
  | CInt b n ty :: r =>
      if ((b =? a)%nat && ((0 <=? ty) && (ty <=? 3))%Z)%bool then Some (AInt n ty) else latest a r
  | _ :: r => latest a r
  end.

(** what an entry made by such a call looks like *)
Definition entry_of (e : centry) (a : nat) (x : carg) : Prop :=
  cvar e = a /\
  match x with
  | AStr f => cform e = f /\ cidef e = (-1)%Z /\ ctype e = USER
  | AInt n ty => cform e = [] /\ cidef e = n /\
      ctype e = (if Z.eqb ty 2 then FCOMP else if Z.eqb ty 3 then FSQR else IDENT)
  end.

(** a constrain call for a variable is clean when the variable's present
    constraint, if any, is marked refinable *)
Definition clean (s : cstate T) (o : cop T) : Prop :=
  match o with
  | CStr a _ | CInt a _ _ => forall e, In e (cons_ s) -> cvar e = a -> cref e = true
  | _ => True
  end.

(** histories in terms of constraints instead of their encodings *)
Inductive uop : Type :=
| UPar (o : pop T)
| UCon (a : nat) (c : con)
| USetVar (a : nat) (v : T)
| UCalc.

Definition to_cop (o : uop) : cop T :=
  match o with
  | UPar p => CPar p
  | UCon a (KForm line _) => CStr a line
  | UCon a (KPar k n) => CInt a n match k with KIdent => 1 | KComp => 2 | KSqr => 3 end
  | USetVar a v => CSetVar a v
  | UCalc => CCalc
  end.

(** all constrain calls of a history, oldest first *)
Definition ucons (h : list uop) : list (nat * con) :=
  flat_map (fun o => match o with UCon a c => [(a, c)] | _ => [] end) h.

End Spec.
Arguments uop T : clear implicits.

(** constraints over the reals *)
Definition con_meaning (env : Z -> option R) (c : con) : option R :=
  match c with
  | KForm _ e => meaning env e
  | KPar k n => match env n with
                | None => None
                | Some p => Some match k with KIdent => p | KComp => 1 - p | KSqr => p * p end%R
                end
  end.

Definition con_smooth (env : Z -> option R) (c : con) : Prop :=
  match c with KForm _ e => smooth env e | KPar _ _ => True end.

(** the constrained value as a function of parameter n *)
Definition con_fun (env : Z -> option R) (c : con) (n : Z) (x : R) : R :=
  match con_meaning (with_value env n x) c with Some v => v | None => 0%R end.
