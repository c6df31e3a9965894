(** How the log of a refinement is read. *)
From Coq Require Import Ascii String List Arith ZArith Reals Bool Sorting.Sorted.
From Verif Require Import Base LsModel LsSpec ParserModel DataModel DataSpec FmtModel FmtSpec SaveModel OutModel OutSpec FitTextSpec RunLogModel.
Import ListNotations.
Local Open Scope R_scope.

(** what is shown of a state of the refinement *)
Record view : Type := mkView { v_p : nat -> R; v_chisq : R; v_stag : bool }.

Section Says.
Variable lg : logd.
Variable o : fobj.

(** the free parameters in the order of their ids, four in a row, six decimals *)
Definition pars_say (p : nat -> R) (rows : list text) : Prop :=
  rows_of 4 rows /\
  exists xs, Forall2 log_shown (all_entries rows) xs /\ StronglySorted Z.lt (map fst xs) /\
    forall a x, In (a, x) xs <-> exists l, free o l /\ lg_id lg l = a /\ x = Fin (dbl_of (p l)).
(** points minus free parameters *)
Definition surplus : Z := (lg_ntot lg - Z.of_nat (length (filter (f_ia o) (seq 1 (f_ma o)))))%Z.
Definition red_says (c : R) (w : text) : Prop :=
  ((0 < surplus)%Z \/ (surplus < 0)%Z /\ 0 < c -> x_part 6 (Fin (dbl_of (c / IZR surplus))) w) /\
  (surplus = 0%Z -> 0 < c -> w = chars "inf").
Definition rw_says (c : R) (w : text) : Prop :=
  (0 < lg_wnorm lg -> 0 <= c -> x_part 6 (Fin (dbl_of (sqrt (c / lg_wnorm lg)))) w) /\
  (0 < lg_wnorm lg -> c < 0 -> w = chars "nan") /\
  (lg_wnorm lg = 0 -> 0 < c -> w = chars "inf").
Definition numbers_line (v : view) (l : text) : Prop :=
  exists w1 w2 w3, words l = [chars "chisq.:"; w1; chars "red.chisq.:"; w2; chars "Rw:"; w3] ++ (if v_stag v then [chars "stagnating"] else []) /\
    x_part 6 (Fin (dbl_of (v_chisq v))) w1 /\ red_says (v_chisq v) w2 /\ rw_says (v_chisq v) w3.
Definition state_says (v : view) (ls : list text) : Prop :=
  exists rows l, ls = [] :: chars " Refinement parameters :" :: rows ++ [[]; l] /\ pars_say (v_p v) rows /\ numbers_line v l.

(** the lines before the first iteration *)
Definition set_line (s : Z * list bool) (l : text) : Prop :=
  words l = chars "Dataset:" :: int_text (fst s) :: chars "Phase:" :: map (fun x => int_text (snd x)) (filter fst (combine (snd s) (lg_phases lg))).
Definition start_says (ls : list text) : Prop :=
  exists hs, ls = [chars "*******************"; chars "Starting refinement"; chars "*******************"] ++ hs /\ Forall2 set_line (lg_sets lg) hs.

Definition iter_title (k : nat) : text :=
  chars "******************************** ITER: " ++ int_text (Z.of_nat k) ++ chars " ********************************".
(** the log of a finished refinement that went through these states *)
Definition log_says (views : list view) (ls : list text) : Prop :=
  exists head blocks fin final,
    ls = head ++ concat (map (fun kb => [] :: iter_title (fst kb) :: snd kb) (combine (seq 0 (length blocks)) blocks)) ++
         [[]; chars "================================ FINAL =================================="] ++ final ++
         [[]; chars "========================================================================="; []] /\
    start_says head /\ Forall2 state_says views blocks /\
    (exists before v, views = before ++ [v] /\ fin = mkView (v_p v) (v_chisq v) false) /\ state_says fin final.
End Says.

(** the state before the first iteration and after each of the others *)
Definition history (toler : R) (running : bool) (c : ctl) (st : option statics) (o : fobj) (views : list view) : Prop :=
  (exists ds v, nth_error views 0 = Some v /\ f_theory o (f_p o) = Ok ds /\ v = mkView (f_p o) (chisq_of ds) false) /\
  forall k, (k < length views)%nat -> (0 < k)%nat ->
    exists running' c' x v v', ls_steps toler k running c (st, o) = Some (running', c', x) /\
      nth_error views k = Some v /\ v_p v = f_p (snd x) /\ v_chisq v = f_chisq (snd x) /\
      nth_error views (k - 1) = Some v' /\ v_chisq v <= v_chisq v' /\
      (v_stag v = true <-> (1 < k)%nat /\ v_chisq v' - v_chisq v <= toler * v_chisq v').

(** ids of the parameters: 32 bits, all different; data sets select phases that exist *)
Definition log_ok_for (lg : logd) (o : fobj) : Prop :=
  (forall l, (1 <= l <= f_ma o)%nat -> (0 <= lg_id lg l < 4294967296)%Z) /\
  (forall l m, (1 <= l <= f_ma o)%nat -> (1 <= m <= f_ma o)%nat -> lg_id lg l = lg_id lg m -> l = m) /\
  Forall (fun s => (length (snd s) <= length (lg_phases lg))%nat) (lg_sets lg).

(** ** reading with a search program *)
(** the numbers of the iterations *)
Definition iter_words (ls : list text) : list text :=
  flat_map (fun l => match strip (chars "******************************** ITER: ") l with Some t => firstn 1 (words t) | None => [] end) ls.
(** the second word of the lines that begin with the word "chisq.:" *)
Definition chisq_words (ls : list text) : list text :=
  flat_map (fun l => match words l with w :: v :: _ => if text_eqb w (chars "chisq.:") then [v] else [] | _ => [] end) ls.
