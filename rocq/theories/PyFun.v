(** Texts that name functions, and values that are not finite. *)
From Coq Require Import Ascii String.
From Coq Require Import List ZArith Reals Bool Lia.
From Verif Require Import Base ParserModel DataSpec DataProof SessModel SessSpec PyModel PySpec PyText PyProof PyRef PyPar.
From Verif Require BindModel ParamModel.
Import ListNotations.
Local Open Scope Z_scope.

(** * functions *)
(** does it take these arguments? *)
Definition takes (k : kind) (o : option Z) : bool :=
  match k, o with
  | KCall (Some _) _, None | KCall _ (Some _), Some _ => true
  | KForeign a _, None => a
  | KForeign _ a, Some _ => a
  | _, _ => false
  end.
Definition no_var (k : kind) : bool := match k with KCall _ _ | KForeign _ _ => true | _ => false end.
Definition mem (t : text) (l : list text) : bool := existsb (text_eqb t) l.
Lemma mem_in t l : mem t l = true <-> In t l.
Proof.
  unfold mem. rewrite existsb_exists. split.
  - intros (x & I & E). apply text_eqb_eq in E. subst. auto.
  - intros I. exists t. split; auto. apply text_eqb_eq. auto.
Qed.
Lemma functions_take : forallb (fun n => match getattr n with
    | Some k => no_var k && Bool.eqb (takes k None) (mem n alone) && Bool.eqb (takes k (Some 0)) (mem n with_number)
    | None => false end) functions = true.
Proof. vm_compute. reflexivity. Qed.
Lemma takes_any k i j : takes k (Some i) = takes k (Some j).
Proof. destruct k as [| |[|] [|]|]; reflexivity. Qed.
Lemma function_kind n : In n functions -> exists k, getattr n = Some k /\ no_var k = true /\
  (forall o, takes k o = true <-> In n (match o with None => alone | Some _ => with_number end)).
Proof.
  intros I. pose proof functions_take as F. rewrite forallb_forall in F. specialize (F _ I). destruct (getattr n) as [k|]; [|discriminate].
  apply andb_true_iff in F as [F F2]. apply andb_true_iff in F as [F0 F1]. apply eqb_prop in F1, F2. exists k. split; auto. split; auto.
  intros [i|]; rewrite <- mem_in. rewrite (takes_any k i 0), F2; tauto. rewrite F1; tauto.
Qed.
Lemma function_call k o s : no_var k = true -> (forall i, o = Some i -> -2^31 <= i < 2^31) ->
  if takes k o then (forall h, snd (call k o s) <> RVal (OVar h)) /\ snd (call k o s) <> RExc XType else call k o s = (s, RExc XType).
Proof.
  intros NV R.
  assert (EC : forall f, (forall h, snd (end_call f s) <> RVal (OVar h)) /\ snd (end_call f s) <> RExc XType).
  { intros f. unfold end_call. destruct (f s) as [q [u|e| |]]; cbn; try (split; [intros h|]; discriminate). destruct (BindModel.c_unassigned e); split; try (intros h); discriminate. }
  destruct k as [v|v|[f0|] [f1|]|[|] [|]]; try discriminate; destruct o as [i|]; cbn [takes call]; auto;
    try (split; [intros h|]; discriminate); rewrite (proj2 (c_int_spec i) (R i eq_refl)); auto.
Qed.
Lemma function_texts t s name o : shaped name t o -> In name functions -> (forall i, o = Some i -> -2^31 <= i < 2^31) ->
  (~ In name (match o with None => alone | Some _ => with_number end) ->
     PyModel.getvar (AText t) s = (s, RExc XType) /\ forall x, PyModel.setvar (AText t) x s = (s, RExc XType)) /\
  (In name (match o with None => alone | Some _ => with_number end) ->
     snd (PyModel.getvar (AText t) s) <> RExc XType /\ (forall y, snd (PyModel.getvar (AText t) s) <> RVal y) /\
     forall x, snd (PyModel.setvar (AText t) x s) <> RExc XType /\ snd (PyModel.setvar (AText t) x s) <> RVal tt).
Proof.
  intros H F R. unfold PyModel.getvar, PyModel.setvar, with_ref, PyModel.get_ref. cbn [convert].
  rewrite (shaped_apart name t o); auto. 2:{ unfold known. rewrite !in_app_iff. tauto. }
  destruct (function_kind name F) as (k & -> & NV & T). pose proof (function_call k o s NV R) as C. specialize (T o). destruct (takes k o).
  - split. tauto. intros _. destruct C as [C1 C2]. destruct (call k o s) as [s' r]. cbn [snd] in C1, C2.
    destruct r as [[hd|]|e| | | |]; try (specialize (C1 hd); congruence); cbn [snd]; (split; [congruence|split; [intros y; discriminate|intros x; split; congruence]]).
  - split. rewrite C. intros _. split; reflexivity. intros K. apply T in K. discriminate.
Qed.

(** * inf and nan *)
Definition down (c : ascii) : ascii := ascii_of_nat (nat_of_ascii c + 32).
Fixpoint cases (w : text) : list text := match w with [] => [[]] | c :: r => flat_map (fun t => [c :: t; down c :: t]) (cases r) end.
Lemma cases_in w t : letters_of w t -> In t (cases w).
Proof.
  induction 1 as [|c d w t E F IH]. now left. cbn [cases]. apply in_flat_map. exists t. split; auto. destruct E as [->|E]. now left.
  right. left. unfold down. rewrite <- E, ascii_nat_embedding. auto.
Qed.
Definition ends_ok (t : text) : bool :=
  match t, rev t with c :: _, d :: _ => negb (is_space c) && negb (is_space d) | _, _ => false end.
Definition reads (sgn : option bool) (w : text) : bool :=
  let u := print_sign sgn ++ w in
  ends_ok u && match drop_us false u with
    | Some v => match scan_float (snd (sign_split v)) with
                | None => existsb (text_eqb (map lower (snd (sign_split v)))) [chars "inf"; chars "infinity"; chars "nan"]
                | Some _ => false end
    | None => false end.
Lemma all_read : forallb (fun w => forallb (fun sgn => reads sgn w) [None; Some true; Some false]) (flat_map cases not_finite) = true.
Proof. vm_compute. reflexivity. Qed.
Lemma reads_float b1 sgn w b2 : blanks b1 -> blanks b2 -> reads sgn w = true -> py_float (b1 ++ (print_sign sgn ++ w) ++ b2) = Some None.
Proof.
  intros B1 B2 R. unfold reads in R. apply andb_true_iff in R as [E R]. unfold py_float. rewrite strip_firm; auto.
  - destruct (drop_us false (print_sign sgn ++ w)) as [v|]; [|discriminate]. destruct (sign_split v) as [ng u]. cbn [snd] in R.
    destruct (scan_float u); [discriminate|]. rewrite R. auto.
  - unfold ends_ok in E. destruct (print_sign sgn ++ w) as [|c r] eqn:Eu; [discriminate|]. destruct (rev (c :: r)) as [|d q] eqn:Er; [discriminate|].
    apply andb_true_iff in E as [E1 E2]. rewrite negb_true_iff in E1, E2. exists c, r, (rev q), d. repeat split; auto.
    rewrite <- (rev_involutive (c :: r)), Er. reflexivity.
Qed.
Lemma setpar_special par s t b1 sgn W w b2 : blanks b1 -> In W not_finite -> letters_of W w -> blanks b2 ->
  PyModel.setpar par (AText (b1 ++ print_sign sgn ++ w ++ b2)) s t = (s, ParamModel.setpar t par None, RVal tt).
Proof.
  intros B1 I L B2. assert (R : reads sgn w = true).
  { pose proof all_read as A. rewrite forallb_forall in A. specialize (A w). rewrite forallb_forall in A. apply A.
    apply in_flat_map. exists W. split; auto. now apply cases_in. destruct sgn as [[|]|]; cbn; auto. }
  unfold PyModel.setpar. cbn [convert]. rewrite (app_assoc (print_sign sgn) w b2). rewrite (reads_float b1 sgn w b2 B1 B2 R). reflexivity.
Qed.
Lemma ex_functions : shaped (chars "getR") (chars " getR") None /\ In (chars "getR") functions /\ In (chars "getR") alone /\
  shaped (chars "alloc") (chars "alloc(3)") (Some 3) /\ In (chars "alloc") functions /\ ~ In (chars "alloc") with_number.
Proof.
  split. exists [" "%char], []. repeat split; repeat constructor; cbn; tauto. split. apply mem_in; reflexivity. split. apply mem_in; reflexivity.
  split. exists [], [], [], [], (chars "3"), [], [")"%char]. repeat split; repeat constructor. exists None, [[3%nat]]. repeat split; try discriminate. repeat constructor; try discriminate; lia.
  split. apply mem_in; reflexivity. intros I. apply mem_in in I. discriminate.
Qed.
Lemma ex_not_finite : In (chars "NAN") not_finite /\ letters_of (chars "NAN") (chars "NaN").
Proof. split. apply mem_in; reflexivity. repeat (apply Forall2_cons; [(left; reflexivity) || (right; reflexivity)|]). constructor. Qed.
