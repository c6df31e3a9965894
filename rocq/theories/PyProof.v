(** References to variables: a text is taken apart as PySpec.v says. *)
From Coq Require Import Ascii String.
From Coq Require Import List ZArith Reals Bool Lia.
From Verif Require Import Base ParserModel DataSpec DataProof SessModel SessSpec PyModel PySpec PyText.
From Verif Require SessProof2.
Import ListNotations.
Local Open Scope Z_scope.

(** letters and digits, as in the names *)
Definition wordc (c : ascii) : bool := negb (py_space c) && negb (Ascii.eqb c "(").
Definition wordy (w : text) : Prop := w <> [] /\ forallb wordc w = true.
Lemma wordy_in w c : wordy w -> In c w -> py_space c = false /\ c <> "("%char.
Proof.
  intros [_ F] H. rewrite forallb_forall in F. specialize (F c H). unfold wordc in F. apply andb_true_iff in F. destruct F as [A B].
  split. now destruct (py_space c). intros ->. discriminate.
Qed.
Lemma wordy_strip b1 w b2 : white b1 -> wordy w -> white b2 -> strip py_space (b1 ++ w ++ b2) = w.
Proof.
  intros F1 W F2. apply strip_firm; try now apply white_space. apply firm_all. apply W. intros c H. eapply wordy_in; eauto.
Qed.
Lemma indexed_wordy name v : In (name, v) indexed -> wordy name.
Proof. cbn. intros H. repeat (destruct H as [H|H]; [injection H as <- _; split; [discriminate|reflexivity]|]). destruct H. Qed.
Lemma single_wordy name : In name (map fst of_phase ++ map fst of_set) -> wordy name.
Proof. cbn. intros H. repeat (destruct H as [<-|H]; [split; [discriminate|reflexivity]|]). destruct H. Qed.

Lemma number_part r1 b3 w i b4 r2 : brackets r1 -> white b3 -> whole_number w i -> white b4 -> brackets r2 ->
  py_int (strip py_space (strip (Ascii.eqb ")") (r1 ++ b3 ++ w ++ b4 ++ r2))) = Some i.
Proof.
  intros R1 B3 W B4 R2. pose proof (number_ne _ _ W) as N.
  assert (NB : forall c, In c (b3 ++ w ++ b4) -> Ascii.eqb ")" c = false).
  { intros c H. apply Ascii.eqb_neq. intros <-. apply in_app_or in H. destruct H as [H|H]. destruct (white_not _ _ B3 H); congruence.
    apply in_app_or in H. destruct H as [H|H]. destruct (number_not_bracket _ _ _ W H); congruence. destruct (white_not _ _ B4 H); congruence. }
  replace (r1 ++ b3 ++ w ++ b4 ++ r2) with (r1 ++ (b3 ++ w ++ b4) ++ r2) by now rewrite <- !app_assoc.
  rewrite strip_firm.
  - rewrite strip_firm; try now apply white_space. now apply py_int_complete. apply firm_all; auto. intros c H. eapply number_not_white; eauto.
  - now apply brackets_eqb.
  - apply firm_all; auto. destruct b3; [|discriminate]. cbn. destruct w; [congruence|discriminate].
  - now apply brackets_eqb.
Qed.
Lemma apart_indexed b1 name b2 r1 b3 w i b4 r2 : white b1 -> wordy name -> white b2 -> brackets r1 -> white b3 -> whole_number w i -> white b4 -> brackets r2 ->
  take_apart (b1 ++ name ++ b2 ++ "("%char :: r1 ++ b3 ++ w ++ b4 ++ r2) = (name, Some i).
Proof.
  intros B1 W B2 R1 B3 N B4 R2. unfold take_apart.
  replace (b1 ++ name ++ b2 ++ "("%char :: r1 ++ b3 ++ w ++ b4 ++ r2) with ((b1 ++ name ++ b2) ++ "("%char :: r1 ++ b3 ++ w ++ b4 ++ r2) by now rewrite <- !app_assoc.
  rewrite split_one.
  - rewrite (number_part r1 b3 w i b4 r2), wordy_strip by auto. reflexivity.
  - intros H. apply in_app_or in H. destruct H as [H|H]. destruct (white_not _ _ B1 H); congruence.
    apply in_app_or in H. destruct H as [H|H]. destruct (wordy_in _ _ W H); congruence. destruct (white_not _ _ B2 H); congruence.
  - assert (Q : forall r, brackets r -> ~ In "("%char r). { intros r F H. unfold brackets in F. rewrite Forall_forall in F. specialize (F _ H). discriminate. }
    intros H. apply in_app_or in H. destruct H as [H|H]. now apply (Q _ R1). apply in_app_or in H. destruct H as [H|H]. destruct (white_not _ _ B3 H); congruence.
    apply in_app_or in H. destruct H as [H|H]. destruct (number_not_bracket _ _ _ N H); congruence. apply in_app_or in H. destruct H as [H|H]. destruct (white_not _ _ B4 H); congruence. now apply (Q _ R2).
Qed.
Lemma apart_single b1 name b2 : white b1 -> wordy name -> white b2 -> take_apart (b1 ++ name ++ b2) = (name, None).
Proof.
  intros B1 W B2. unfold take_apart. rewrite split_none, wordy_strip; auto.
  intros H. apply in_app_or in H. destruct H as [H|H]. destruct (white_not _ _ B1 H); congruence.
  apply in_app_or in H. destruct H as [H|H]. destruct (wordy_in _ _ W H); congruence. destruct (white_not _ _ B2 H); congruence.
Qed.
Lemma strip_white t : exists b1 b2, t = b1 ++ strip py_space t ++ b2 /\ white b1 /\ white b2.
Proof. destruct (strip_inv py_space t) as (b1 & b2 & E & F1 & F2). exists b1, b2. rewrite !white_space. auto. Qed.
Lemma apart_inv t name o : take_apart t = (name, o) ->
  match o with
  | None => exists b1 b2, t = b1 ++ name ++ b2 /\ white b1 /\ white b2
  | Some i => exists b1 b2 r1 b3 w b4 r2, t = b1 ++ name ++ b2 ++ "("%char :: r1 ++ b3 ++ w ++ b4 ++ r2 /\
      white b1 /\ white b2 /\ brackets r1 /\ white b3 /\ whole_number w i /\ white b4 /\ brackets r2
  end.
Proof.
  unfold take_apart. intros E.
  assert (P : (strip py_space t, None) = (name, o) -> match o with
  | None => exists b1 b2, t = b1 ++ name ++ b2 /\ white b1 /\ white b2
  | Some i => exists b1 b2 r1 b3 w b4 r2, t = b1 ++ name ++ b2 ++ "("%char :: r1 ++ b3 ++ w ++ b4 ++ r2 /\
      white b1 /\ white b2 /\ brackets r1 /\ white b3 /\ whole_number w i /\ white b4 /\ brackets r2 end).
  { intros Q. injection Q as <- <-. apply strip_white. }
  destruct (split "(" t) as [|m [|a [|? ?]]] eqn:Sp; try exact (P E). destruct (py_int (strip py_space (strip (Ascii.eqb ")") a))) as [i|] eqn:I; try exact (P E). clear P. injection E as <- <-.
  apply split_two in Sp. destruct Sp as (-> & _ & _). destruct (strip_white m) as (b1 & b2 & E & W1 & W2).
  destruct (strip_inv (Ascii.eqb ")") a) as (r1 & r2 & Ea & R1 & R2). destruct (strip_white (strip (Ascii.eqb ")") a)) as (b3 & b4 & Eb & W3 & W4).
  apply py_int_sound in I. exists b1, b2, r1, b3, (strip py_space (strip (Ascii.eqb ")") a)), b4, r2. rewrite !brackets_eqb. repeat split; auto.
  rewrite E at 1. rewrite Ea at 1. rewrite Eb at 1. rewrite <- !app_assoc. reflexivity.
Qed.

(** * the functions *)
Lemma getattr_in name k : getattr name = Some k -> In (name, k) methods.
Proof.
  unfold getattr. destruct (find _ methods) as [[n k']|] eqn:E; [|discriminate]. intros Q. injection Q as <-. apply find_some in E. destruct E as [I E].
  cbn [fst] in E. unfold text_eqb in E. destruct (list_eq_dec ascii_dec n name) as [->|]; [exact I|discriminate].
Qed.
Lemma getattr_indexed name v : In (name, v) indexed -> getattr name = Some (KVec v).
Proof. cbn [indexed map In fst snd]. intros H. repeat (destruct H as [H|H]; [injection H as <- <-; reflexivity|]). destruct H. Qed.
Lemma getattr_phase name l : In (name, l) of_phase -> exists v, getattr name = Some (KSca v) /\ phase_var v = Some l.
Proof. cbn [of_phase map In fst snd]. intros H. repeat (destruct H as [H|H]; [injection H as <- <-; eexists; split; reflexivity|]). destruct H. Qed.
Lemma getattr_set name l : In (name, l) of_set -> exists v, getattr name = Some (KSca v) /\ set_var v = Some l.
Proof. cbn [of_set map In fst snd]. intros H. repeat (destruct H as [H|H]; [injection H as <- <-; eexists; split; reflexivity|]). destruct H. Qed.
Lemma in_by l (t : text) : existsb (text_eqb t) l = true -> In t l.
Proof. rewrite existsb_exists. intros (u & I & E). unfold text_eqb in E. destruct (list_eq_dec ascii_dec t u) as [->|]; [exact I|discriminate]. Qed.
Lemma methods_all (P : text * kind -> Prop) : Forall P methods -> forall n k, getattr n = Some k -> P (n, k).
Proof. intros F n k H. apply getattr_in in H. rewrite Forall_forall in F. now apply F. Qed.
Definition kind_ok (p : text * kind) : Prop :=
  let name := fst p in
  match snd p with
  | KVec v => In (name, v) indexed
  | KSca v => (exists l, In (name, l) of_phase /\ phase_var v = Some l) \/ (exists l, In (name, l) of_set /\ set_var v = Some l)
  | KCall f0 f1 => In name functions /\
      (In name (map chars ["reset"; "setphase"; "setdata"; "psel"; "pdesel"]%string) \/
       (forall f s, f0 = Some f -> fst (f s) = s) /\ (forall f i s, f1 = Some f -> fst (f i s) = s))
  | KForeign _ _ => In name functions
  end.
Ltac find_in := solve [cbn [indexed of_phase of_set map In fst snd]; repeat first [left; reflexivity | right]].
Lemma getattr_cases name k : getattr name = Some k -> kind_ok (name, k).
Proof.
  revert name k. apply methods_all. unfold methods. cbn [map fst snd].
  repeat (apply Forall_cons || apply Forall_nil).
  all: unfold kind_ok; cbn [fst snd].
  all: lazymatch goal with
  | |- In _ functions => apply in_by; reflexivity
  | |- In _ indexed => find_in
  | |- _ \/ _ => first [left; eexists; split; [find_in|reflexivity] | right; eexists; split; [find_in|reflexivity]]
  | |- In _ functions /\ _ => split; [apply in_by; reflexivity|]; 
       first [left; apply in_by; reflexivity
             | right; split; [intros f s Q|intros f i s Q]; try discriminate Q; injection Q as <-; reflexivity]
  end.
Qed.
