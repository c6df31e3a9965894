(** How the parameter part of the results text and the parameters in the log of a
    refinement are read. *)
From Coq Require Import Ascii String List Arith ZArith Reals Bool.
From Verif Require Import Base ParamModel ParamSpec MatrixModel ParserModel DataModel DataSpec FmtModel FmtSpec SaveModel ReportModel OutModel OutSpec.
Import ListNotations.
Local Open Scope R_scope.

Definition x_ok (x : xdbl) : Prop := match x with Fin d => dbl_ok d | _ => True end.
(** a number with P significant digits *)
Definition x_part (P : nat) (x : xdbl) (t : text) : Prop :=
  match x with
  | Fin d => exists n, t = print_numeral n /\ shows_general P d n
  | Inf neg => t = chars (if neg then "-inf" else "inf")
  | Nan => t = chars "nan"
  end.
(** a number with six decimals *)
Definition x_decimals (x : xdbl) (t : text) : Prop :=
  match x with
  | Fin d => exists n, t = print_numeral n /\ shows_fixed 6 d n
  | Inf neg => t = chars (if neg then "-inf" else "inf")
  | Nan => t = chars "nan"
  end.
(** the deviation of a finite value matters if it is larger than 1e-8 of the value *)
Definition x_matters (x dx : xdbl) : Prop :=
  exists v, x = Fin v /\ ((exists d, dx = Fin d /\ Rabs (d_val v) / 100000000 < d_val d) \/ dx = Inf false).
(** a value with six digits, and its deviation with two, unless it does not matter *)
Definition x_shown (f : text * option text) (x dx : xdbl) : Prop :=
  x_part 6 x (fst f) /\
  (dx = Nan -> snd f = Some (chars "(NaN)")) /\
  (x_matters x dx -> exists t, snd f = Some (chars "(" ++ t ++ chars ")") /\ x_part 2 dx t) /\
  (dx <> Nan -> ~ x_matters x dx -> snd f = None).

(** words in groups: a name, a value and perhaps a word in parentheses *)
Fixpoint entries (ws : list text) : list (text * (text * option text)) :=
  match ws with
  | k :: v :: r => match r with
                   | s :: r' => if paren s then (k, (v, Some s)) :: entries r' else (k, (v, None)) :: entries r
                   | [] => [(k, (v, None))]
                   end
  | _ => []
  end.
(** "id:" with the value and the deviation *)
Definition par_shown (e : text * (text * option text)) (x : Z * xdbl * xdbl) : Prop :=
  let '(a, v, d) := x in fst e = int_text a ++ chars ":" /\ x_shown (snd e) v d.
(** "id:" with the value *)
Definition log_shown (e : text * (text * option text)) (x : Z * xdbl) : Prop :=
  let '(a, v) := x in fst e = int_text a ++ chars ":" /\ x_decimals v (fst (snd e)) /\ snd (snd e) = None.
(** rows of c entries, the last one may be shorter *)
Definition rows_of (c : nat) (rows : list text) : Prop :=
  Forall (fun l => (0 < length (entries (words l)) <= c)%nat) rows /\ Forall (fun l => length (entries (words l)) = c) (removelast rows).
(** the entries of the rows *)
Definition all_entries (rows : list text) : list (text * (text * option text)) := concat (map (fun l => entries (words l)) rows).

(** the line with the label has one word *)
Definition says_word (ls : list text) (label : string) (w : text) : Prop :=
  exists t, labelled (chars label) ls = Some t /\ words t = [w].
Definition counts_say (ls : list text) (nvar nref nfix : nat) : Prop :=
  says_word ls " Number of constraints        :" (int_text (Z.of_nat nvar)) /\
  says_word ls " Number of refined parameters :" (int_text (Z.of_nat nref)) /\
  says_word ls " Number of fixed parameters   :" (int_text (Z.of_nat nfix)).
(** the numbers of the refinement *)
Definition numbers_say (ls : list text) (iter : Z) (redchisq rw : xdbl) : Prop :=
  says_word ls " Number of iterations :" (int_text iter) /\
  (exists w, says_word ls " Reduced chi squared  :" w /\ x_part 6 redchisq w) /\
  (exists w, says_word ls " Rw - value           :" w /\ x_part 6 rw w).
(** a line about the correlation of two parameters *)
Definition corr_says (l : text) (x : Z * Z * xdbl) : Prop :=
  let '(a, b, c) := x in
  exists w, words l = [chars "Corr(p[" ++ int_text a ++ chars "],"; chars "p[" ++ int_text b ++ chars "])"; chars "="; w] /\ x_part 6 c w.
(** the lines about correlations, or a line that says there are none *)
Definition corrs_say (ls : list text) (cs : list (Z * Z * xdbl)) : Prop :=
  exists rows, ls = [] :: rows /\
  (cs <> [] -> Forall2 corr_says rows cs) /\
  (cs = [] -> map words rows = [[chars "***"; chars "none"; chars "***"]]).

(** no magnitude is negative: values of the parameters, deviations, covariances and the
    two numbers about the fit *)
Definition all_ok (h : list (pop xdbl)) (f : fitdata xdbl) (redchisq rw : xdbl) : Prop :=
  (forall a v, last_set a (rev h) = Some v -> x_ok v) /\ Forall x_ok (fd_dp f) /\ Forall x_ok (mdata (fd_cov f)) /\ x_ok redchisq /\ x_ok rw.
