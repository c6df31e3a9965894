(** What the built-in functions are meant to be: name, mathematical function
    and the domain on which it is differentiable. *)
From Coq Require Import List ZArith Ascii String Reals.
From Verif Require Import Base ParamModel ParserModel ParserSpec.
Import ListNotations.
Local Open Scope R_scope.

Definition degrees (x : R) : R := x * PI / 180.

Definition fun_spec : list (string * ((R -> R) * (R -> Prop))) :=
  [ ("-"%string, (fun x => - x, fun _ => True));
    ("sin"%string, (sin, fun _ => True));
    ("cos"%string, (cos, fun _ => True));
    ("tan"%string, (fun x => sin x / cos x, fun x => cos x <> 0));
    ("sind"%string, (fun x => sin (degrees x), fun _ => True));
    ("cosd"%string, (fun x => cos (degrees x), fun _ => True));
    ("tand"%string, (fun x => sin (degrees x) / cos (degrees x), fun x => cos (degrees x) <> 0));
    ("asin"%string, (asin, fun x => -1 < x < 1));
    ("acos"%string, (acos, fun x => -1 < x < 1));
    ("atan"%string, (atan, fun _ => True));
    ("asind"%string, (fun x => asin x * 180 / PI, fun x => -1 < x < 1));
    ("acosd"%string, (fun x => acos x * 180 / PI, fun x => -1 < x < 1));
    ("atand"%string, (fun x => atan x * 180 / PI, fun _ => True));
    ("exp"%string, (exp, fun _ => True));
    ("log"%string, (ln, fun x => 0 < x));
    ("sqr"%string, (fun x => x ^ 2, fun _ => True));
    ("cube"%string, (fun x => x ^ 3, fun _ => True));
    ("sqrt"%string, (sqrt, fun x => 0 < x)) ].

(** numbers in formulas: m*10^e *)
Definition decimal (m e : Z) : R := IZR m * powerRZ 10 e.

Fixpoint lookup (name : text) (l : list (string * ((R -> R) * (R -> Prop))))
  : option ((R -> R) * (R -> Prop)) :=
  match l with
  | [] => None
  | (s, x) :: l' => if list_eq_dec ascii_dec (list_ascii_of_string s) name then Some x else lookup name l'
  end.

(** meaning of a formula tree over the reals, with the functions of [fun_spec] *)
Fixpoint meaning (env : Z -> option R) (e : fexp) : option R :=
  match e with
  | ELit m x => Some (decimal m x)
  | EPar n => env n
  | ENeg a => match meaning env a with Some x => Some (- x) | None => None end
  | EBin c a b =>
      match meaning env a, meaning env b with
      | Some x, Some y =>
          if Ascii.eqb c "+" then Some (x + y)
          else if Ascii.eqb c "-" then Some (x - y)
          else if Ascii.eqb c "*" then Some (x * y)
          else if Ascii.eqb c "/" then Some (x / y) else None
      | _, _ => None
      end
  | ECall f a =>
      match lookup f fun_spec, meaning env a with
      | Some (g, _), Some x => Some (g x)
      | _, _ => None
      end
  end.

(** all denominators are nonzero and all arguments in the domain of their function *)
Fixpoint smooth (env : Z -> option R) (e : fexp) : Prop :=
  match e with
  | ELit _ _ | EPar _ => True
  | ENeg a => smooth env a
  | EBin c a b => smooth env a /\ smooth env b /\
      (c = "/"%char -> forall y, meaning env b = Some y -> y <> 0)
  | ECall f a => smooth env a /\
      forall g dom x, lookup f fun_spec = Some (g, dom) -> meaning env a = Some x -> dom x
  end.

(** the formula as a function of parameter n, the others held *)
Definition with_value (env : Z -> option R) (n : Z) (x : R) (m : Z) : option R :=
  if Z.eqb m n then Some x else env m.
Definition partial_fun (env : Z -> option R) (e : fexp) (n : Z) (x : R) : R :=
  match meaning (with_value env n x) e with Some v => v | None => 0 end.
