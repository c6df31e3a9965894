(** Model of the constraint formula parser, src/extensions/libpdffit2/parser.cc,
    at the level of characters.

    C++ keeps the text in a [string]/[istringstream] with integer positions.
    The model represents a stream position by the remaining suffix and keeps
    the text in front of it separately, so [expr.replace(pos, end-pos, s)]
    becomes [pre ++ s ++ rest].  When extraction stopped at the end of the
    stream, [tellg()] is -1 and [end-pos] wraps to a huge size_t: the replace
    then runs to the end of the text, which is [rest = []] here.

    [double] is the type parameter [T] with its operations in [numops]. *)
From Coq Require Import List ZArith Ascii String Bool.
From Verif Require Import Base ParamModel.
Import ListNotations.
Local Open Scope char_scope.

(** * Characters *)

Definition text := list ascii.
Definition chars (s : string) : text := list_ascii_of_string s.

(** isspace() of the "C" locale, used by formatted extraction *)
Definition is_space (c : ascii) : bool :=
  let n := nat_of_ascii c in (n =? 32)%nat || ((9 <=? n)%nat && (n <=? 13)%nat).

Definition is_digit (c : ascii) : bool :=
  let n := nat_of_ascii c in (48 <=? n)%nat && (n <=? 57)%nat.

(** models parser.cc:156, [(c>='a') && (c<='z')] *)
Definition is_lower (c : ascii) : bool :=
  let n := nat_of_ascii c in (97 <=? n)%nat && (n <=? 122)%nat.

Definition digit_val (c : ascii) : Z := Z.of_nat (nat_of_ascii c) - 48.
Definition digit_of (z : Z) : ascii := ascii_of_nat (Z.to_nat (48 + z)).

Fixpoint skipws (l : text) : text :=
  match l with
  | [] => []
  | c :: r => if is_space c then skipws r else l
  end.

(** longest prefix of digits *)
Fixpoint span_digits (l : text) : text * text :=
  match l with
  | [] => ([], [])
  | c :: r => if is_digit c then let (d, r') := span_digits r in (c :: d, r')
              else ([], l)
  end.

Definition digits_val (d : text) : Z :=
  fold_left (fun a c => (10 * a + digit_val c)%Z) d 0%Z.

(** an optional sign: is it '-', and what follows *)
Definition sign_split (l : text) : bool * text :=
  match l with
  | [] => (false, [])
  | c :: r => if Ascii.eqb c "-" then (true, r)
              else if Ascii.eqb c "+" then (false, r) else (false, l)
  end.

(** [istream >> int]: skip blanks, optional sign, digits; fails without digits
    or when the value does not fit in 32 bits.  Returns value and rest. *)
Definition scan_int (l : text) : option (Z * text) :=
  let (neg, l) := sign_split (skipws l) in
  let (d, r) := span_digits l in
  match d with
  | [] => None
  | _ => let v := digits_val d in
         let v := if neg : bool then (- v)%Z else v in
         if ((-2147483648 <=? v) && (v <=? 2147483647))%Z then Some (v, r) else None
  end.

(** [istream >> double] for a text that starts with neither blank nor sign (as
    in getnum): libstdc++ collects digits, one '.', more digits and an exponent
    and hands them to strtod.  Result: mantissa digits m and decimal exponent e
    (value m*10^e), rest; None when the collected text is not a number. *)
Definition scan_frac (l : text) : text * text :=
  match l with
  | [] => ([], [])
  | c :: r => if Ascii.eqb c "." then span_digits r else ([], l)
  end.
Definition scan_exp (l : text) : option (Z * text) :=
  match l with
  | [] => Some (0%Z, [])
  | c :: r =>
      if Ascii.eqb c "e" || Ascii.eqb c "E" then
        let (neg, r) := sign_split r in
        let (d3, r3) := span_digits r in
        match d3 with
        | [] => None
        | _ => Some ((if neg : bool then - digits_val d3 else digits_val d3)%Z, r3)
        end
      else Some (0%Z, l)
  end.
Definition scan_float (l : text) : option (Z * Z * text) :=
  let (d1, r1) := span_digits l in
  let (d2, r2) := scan_frac r1 in
  match d1 ++ d2 with
  | [] => None
  | m => match scan_exp r2 with
         | None => None
         | Some (e, r3) => Some (digits_val m, (e - Z.of_nat (List.length d2))%Z, r3)
         end
  end.

(** models parser.cc:34-39 stackvar: '#' followed by the index in decimal *)
Fixpoint dec_digits (fuel : nat) (n : Z) (acc : text) : text :=
  match fuel with
  | O => acc
  | S f => let acc := digit_of (n mod 10) :: acc in
           if (n <? 10)%Z then acc else dec_digits f (n / 10) acc
  end.
Definition stackvar (i : nat) : text := "#" :: dec_digits (S i) (Z.of_nat i) [].

(** [string::find] of one character: text before it and after it *)
Fixpoint split_at (c : ascii) (l : text) : option (text * text) :=
  match l with
  | [] => None
  | h :: t => if Ascii.eqb h c then Some ([], t)
              else match split_at c t with
                   | Some (a, b) => Some (h :: a, b)
                   | None => None
                   end
  end.

(** [string::rfind] of one character: text before its last occurrence and after *)
Fixpoint rsplit_at (c : ascii) (l : text) : option (text * text) :=
  match l with
  | [] => None
  | h :: t => match rsplit_at c t with
              | Some (a, b) => Some (h :: a, b)
              | None => if Ascii.eqb h c then Some ([], t) else None
              end
  end.

(** * Numbers *)

Record numops (T : Type) : Type := mkNum {
  n_zero : T; n_one : T;
  n_add : T -> T -> T; n_sub : T -> T -> T; n_mul : T -> T -> T; n_div : T -> T -> T;
  n_opp : T -> T;
  n_lit : Z -> Z -> option T     (* m*10^e; None when out of range of double *)
}.
Arguments n_zero {T}. Arguments n_one {T}. Arguments n_add {T}. Arguments n_sub {T}.
Arguments n_mul {T}. Arguments n_div {T}. Arguments n_opp {T}. Arguments n_lit {T}.

(** models pdffit.h:120-126 class Builtin with its map key *)
Record builtin (T : Type) : Type := mkBuiltin { bname : text; bfun : T -> T; bder : T -> T }.
Arguments mkBuiltin {T}. Arguments bname {T}. Arguments bfun {T}. Arguments bder {T}.

Section Parser.
Context {T : Type} (N : numops T) (builtins : list (builtin T)).

(** map lookup [builtin.find(name)] *)
Definition text_eqb (a b : text) : bool :=
  if list_eq_dec ascii_dec a b then true else false.
Definition find_builtin (name : text) : option (builtin T) :=
  find (fun b => text_eqb (bname b) name) builtins.

(** models parser.cc:30-32 static vstack, dstack, deriv and used.size();
    an empty derivative vector is [] *)
Record pstate : Type := mkPst {
  vst : list T; dst : list (list T); deriv : bool; nused : nat }.

(** a number, its derivative vector and the rest of the stream *)
Definition gres : Type := (T * list T * text)%type.

(** vstack[id] and, if deriv, dstack[id]; out of range is UB.
    models parser.cc:180,183,196,197 *)
Definition stack_get (s : pstate) (i : Z) : outcome (T * list T) :=
  if (i <? 0)%Z then UB else
  match nth_error (vst s) (Z.to_nat i) with
  | None => UB
  | Some v =>
      if deriv s then
        match nth_error (dst s) (Z.to_nat i) with
        | None => UB
        | Some d => Ok (v, d)
        end
      else Ok (v, [])
  end.

(** loop [for i<used.size() d\[i\] = f d\[i\]] over a derivative vector *)
Definition dmap (s : pstate) (f : T -> T) (d : list T) : outcome (list T) :=
  match d with
  | [] => Ok []
  | _ => if (List.length d =? nused s)%nat then Ok (map f d) else UB
  end.

(** models parser.cc:154-206, getnum after skipping blanks and signs; [c] is
    the character just read, [r] the rest *)
Definition getnum_base (s : pstate) (c : ascii) (r : text) : outcome gres :=
  if is_lower c then
    match split_at "#" (c :: r) with
    | None => Err ErrParse
    | Some (name, r1) =>
        match find_builtin name with
        | None => Err ErrParse
        | Some b =>
            match scan_int r1 with
            | None => Err ErrParse
            | Some (i, rest) =>
                obind (stack_get s i) (fun '(v, d) =>
                obind (dmap s (n_mul N (bder b v)) d) (fun d' =>
                Ok (bfun b v, d', rest)))
            end
        end
    end
  else if Ascii.eqb c "#" then
    match scan_int r with
    | None => Err ErrParse
    | Some (i, rest) => obind (stack_get s i) (fun '(v, d) => Ok (v, d, rest))
    end
  else
    match scan_float (c :: r) with
    | None => Err ErrParse
    | Some (m, e, rest) =>
        match n_lit N m e with
        | None => Err ErrParse
        | Some v => Ok (v, [], rest)
        end
    end.

(** models parser.cc:122-208 Fit::getnum *)
Fixpoint getnum (s : pstate) (l : text) : outcome gres :=
  match l with
  | [] => Err ErrParse
  | c :: r =>
      if is_space c then getnum s r
      else if Ascii.eqb c "-" then
        obind (getnum s r) (fun '(v, d, rest) =>
        obind (dmap s (n_opp N) d) (fun d' => Ok (n_opp N v, d', rest)))
      else if Ascii.eqb c "+" then getnum s r
      else getnum_base s c r
  end.

(** [base\[i\] = f base\[i\] d\[i\]] for i < used.size(), skipped for empty d *)
Fixpoint map2 (f : T -> T -> T) (a b : list T) : list T :=
  match a, b with
  | x :: a', y :: b' => f x y :: map2 f a' b'
  | _, _ => []
  end.
Definition dacc (s : pstate) (f : T -> T -> T) (base d : list T) : outcome (list T) :=
  match d with
  | [] => Ok base
  | _ => if ((List.length d =? nused s) && (List.length base =? nused s))%nat
         then Ok (map2 f base d) else UB
  end.

Definition dzero (s : pstate) : list T := repeat (n_zero N) (nused s).

(** models parser.cc:275-331: value and derivatives of one binary operation;
    [op] is one of "*/+-" *)
Definition binop (s : pstate) (op : ascii) (v1 : T) (d1 : list T) (v2 : T) (d2 : list T)
  : outcome (T * list T) :=
  let base := match d1, d2 with [], [] => [] | _, _ => dzero s end in
  let start := match d1 with [] => base | _ => d1 end in
  let v := if Ascii.eqb op "+" then n_add N v1 v2
           else if Ascii.eqb op "-" then n_sub N v1 v2
           else if Ascii.eqb op "*" then n_mul N v1 v2
           else n_div N v1 v2 in
  if negb (deriv s) then Ok (v, base)
  else
    omap (fun d => (v, d))
    (if Ascii.eqb op "+" then dacc s (n_add N) start d2
     else if Ascii.eqb op "-" then dacc s (n_sub N) start d2
     else if Ascii.eqb op "*" then
       obind (dacc s (fun a x => n_add N a (n_mul N x v2)) base d1) (fun b1 =>
       dacc s (fun a x => n_add N a (n_mul N v1 x)) b1 d2)
     else
       obind (dacc s (fun a x => n_add N a (n_div N x v2)) base d1) (fun b1 =>
       dacc s (fun a x => n_sub N a (n_div N (n_mul N v1 x) (n_mul N v2 v2))) b1 d2)).

Definition is_op (c : ascii) : bool :=
  Ascii.eqb c "*" || Ascii.eqb c "/" || Ascii.eqb c "+" || Ascii.eqb c "-".
Definition is_pm (c : ascii) : bool := Ascii.eqb c "+" || Ascii.eqb c "-".

(** push a result: vstack.push_back(num); if (deriv) dstack.push_back(d).
    models parser.cc:337-342 and 389-392 *)
Definition push (s : pstate) (v : T) (d : list T) : pstate :=
  mkPst (vst s ++ [v]) (if deriv s then dst s ++ [d] else dst s) (deriv s) (nused s).

(** models parser.cc:213-351 Fit::compute: the loop of the two passes.
    [pre] is the text in front of the current position [pos], [suf] the text
    from there on.  Result: the number, its derivatives and the stacks. *)
Fixpoint compute_loop (fuel : nat) (pass2 : bool) (s : pstate) (pre suf : text)
  : outcome (T * list T * pstate) :=
  match fuel with
  | O => NoFuel
  | S f =>
      obind (getnum s suf) (fun '(v1, d1, r1) =>
      match skipws r1 with
      | [] =>
          if pass2 then Ok (v1, (if deriv s then d1 else []), s)
          else compute_loop f true s [] (pre ++ suf)
      | op :: r2 =>
          if negb (is_op op) then Err ErrParse
          else if negb pass2 && is_pm op then
            compute_loop f pass2 s
              (pre ++ firstn (List.length suf - List.length r2) suf) r2
          else
            obind (getnum s r2) (fun '(v2, d2, r3) =>
            obind (binop s op v1 d1 v2 d2) (fun '(v, d) =>
            compute_loop f pass2 (push s v d) pre (stackvar (List.length (vst s)) ++ r3)))
      end)
  end.

Definition compute (s : pstate) (expr : text) : outcome (T * list T * pstate) :=
  compute_loop (2 * List.length expr + 3) false s [] expr.

(** position of a parameter in [used], parser.cc:76-80 *)
Fixpoint find_used (k : nat) (u : list nat) : option nat :=
  match u with
  | [] => None
  | h :: t => if (h =? k)%nat then Some O
              else match find_used k t with Some i => Some (S i) | None => None end
  end.

(** models parser.cc:50-89, the substitution loop of Fit::substitute_pars;
    [used] and the values pushed on vstack are accumulated *)
Fixpoint subst_loop (fuel : nat) (t : ptab T) (expr : text) (used : list nat) (vs : list T)
  : outcome (text * list nat * list T) :=
  match fuel with
  | O => NoFuel
  | S f =>
      match split_at "@" expr with
      | None => Ok (expr, used, vs)
      | Some (pre, post) =>
          match scan_int post with
          | None => Err ErrParse
          | Some (id, rest) =>
              match parfind t id with
              | None => Err ErrConstraint
              | Some k =>
                  match find_used k used with
                  | Some i => subst_loop f t (pre ++ stackvar i ++ rest) used vs
                  | None =>
                      match nth_error (pval t) k with
                      | None => UB
                      | Some v =>
                          subst_loop f t (pre ++ stackvar (List.length used) ++ rest)
                            (used ++ [k]) (vs ++ [v])
                      end
                  end
              end
          end
      end
  end.

(** free flags ip[used[i]], parser.cc:93-94,105; out of range is UB *)
Fixpoint used_flags (t : ptab T) (used : list nat) : outcome (list bool) :=
  match used with
  | [] => Ok []
  | k :: u => match nth_error (pfree t) k with
              | None => UB
              | Some b => omap (cons b) (used_flags t u)
              end
  end.

(** models parser.cc:98-115: unit derivative vectors of the used parameters *)
Definition unit_vec (n i : nat) : list T :=
  map (fun j => if (j =? i)%nat then n_one N else n_zero N) (seq 0 n).
Definition init_dst (flags : list bool) : list (list T) :=
  map (fun i => if nth i flags false then unit_vec (List.length flags) i else [])
      (seq 0 (List.length flags)).

(** models parser.cc:374-397, the bracket loop and final evaluation of
    Fit::parse.  If ')' is the very first character, [bclose-1] wraps around
    and rfind searches the whole text (second branch). *)
Fixpoint bracket_loop (fuel : nat) (s : pstate) (line : text) : outcome (T * list T) :=
  match fuel with
  | O => NoFuel
  | S f =>
      match split_at ")" line with
      | None => omap fst (compute s line)
      | Some (before, after) =>
          match before with
          | [] =>
              match rsplit_at "(" line with
              | None => Err ErrParse
              | Some (pre, inner) =>
                  obind (compute s inner) (fun '(v, d, s') =>
                  let k := stackvar (List.length (vst s')) in
                  bracket_loop f (push s' v d)
                    (if (List.length pre =? 1)%nat then pre ++ k ++ "(" :: inner else pre ++ k))
              end
          | _ =>
              match rsplit_at "(" before with
              | None => Err ErrParse
              | Some (pre, inner) =>
                  obind (compute s inner) (fun '(v, d, s') =>
                  bracket_loop f (push s' v d)
                    (pre ++ stackvar (List.length (vst s')) ++ after))
              end
          end
      end
  end.

(** models parser.cc:357-400 Fit::parse (with substitute_pars inlined):
    value, derivative vector and the list [used] of parameter positions *)
Definition parse (t : ptab T) (line : text) : outcome (T * list T * list nat) :=
  match split_at "#" line with
  | Some _ => Err ErrParse
  | None =>
      obind (subst_loop (S (List.length line)) t line [] []) (fun '(expr, used, vs) =>
      obind (used_flags t used) (fun flags =>
      let dv := existsb (fun b => b) flags in
      let s := mkPst vs (if dv then init_dst flags else []) dv (List.length used) in
      omap (fun '(v, d) => (v, d, used))
           (bracket_loop (2 * List.length expr + 3) s expr)))
  end.

End Parser.
Arguments pstate T : clear implicits.
