(** Lemmas on the lines and words of the results text. *)
From Coq Require Import Ascii String List Arith ZArith Reals Bool Lia Lra.
From Verif Require Import Base ParserModel ParserLex DataModel DataSpec DataProof FmtModel FmtSpec FmtProof FmtGen FmtFinal ElementTable ScatModel SaveModel ReportModel ReportSpec ReportSel ReportFinal OutModel OutSpec.
Import ListNotations.
Local Open Scope R_scope.

(** * words *)
Lemma Forall_ne {A} (P : A -> Prop) l x : Forall P l -> ~ P x -> ~ In x l.
Proof. intros F N I. rewrite Forall_forall in F. auto. Qed.
Lemma word_line w : word w -> one_line w.
Proof. intros [F _]. apply (Forall_ne _ _ _ F). discriminate. Qed.
Lemma blank_line b : Forall (fun c => c = " "%char) b -> one_line b.
Proof. intros F. apply (Forall_ne _ _ _ F). discriminate. Qed.
Lemma one_app a b : one_line (a ++ b) <-> one_line a /\ one_line b.
Proof. unfold one_line. rewrite in_app_iff. tauto. Qed.
Lemma digit_word d : Forall (fun k => (k < 10)%nat) d -> Forall (fun c => is_space c = false /\ c <> "("%char) (print_digits d).
Proof.
  induction 1 as [|x d X F IH]; simpl; constructor; auto. do 10 (destruct x as [|x]; [split; [reflexivity|discriminate]|]). lia.
Qed.
Lemma sign_word s : Forall (fun c => is_space c = false /\ c <> "("%char) (print_sign s).
Proof. destruct s as [[]|]; repeat constructor; discriminate. Qed.
Lemma numeral_free n : numeral_ok n -> Forall (fun c => is_space c = false /\ c <> "("%char) (print_numeral n).
Proof.
  intros (A & B & _ & D). unfold print_numeral.
  apply Forall_app; split. apply sign_word. apply Forall_app; split. apply digit_word; auto. apply Forall_app; split.
  - destruct (nu_frac n); constructor. split; [reflexivity|discriminate]. apply digit_word; auto.
  - destruct (nu_exp n) as [[[up s] d]|]; constructor. destruct up; split; try reflexivity; discriminate.
    apply Forall_app; split. apply sign_word. apply digit_word; tauto.
Qed.
Lemma numeral_ne n : numeral_ok n -> print_numeral n <> [].
Proof. intros H. destruct (print_head n H) as (c & q & -> & _). discriminate. Qed.
Lemma numeral_word n : numeral_ok n -> word (print_numeral n) /\ paren (print_numeral n) = false.
Proof.
  intros H. pose proof (numeral_free n H) as F. split; [split|].
  - revert F. apply Forall_impl. tauto.
  - apply numeral_ne; auto.
  - destruct (print_numeral n) as [|c q]; auto. inversion F; subst. simpl. apply Ascii.eqb_neq. tauto.
Qed.
Lemma part_word x t : value_part x t -> word t /\ paren t = false.
Proof.
  destruct x as [x|]; simpl. intros (n & -> & OK & _). apply numeral_word; auto. intros ->. split; [split|]; auto. repeat constructor. discriminate.
Qed.
Lemma num_text_part x : opt_ok x -> value_part x (num_text x).
Proof. destruct x as [x|]; simpl; auto. intros H. destruct (general_print 6 x ltac:(lia) H) as (n & E & G). exists n. auto. Qed.
Lemma int_text_word z : word (int_text z).
Proof.
  unfold int_text. destruct (dec_text_pd (Z.abs z) ltac:(lia)) as (d & -> & F & _ & P). split.
  - apply Forall_app; split. destruct (z <? 0)%Z; repeat constructor. pose proof (digit_word d F) as Q. revert Q. apply Forall_impl. tauto.
  - destruct d. destruct (plain_ne _ P); auto. destruct (z <? 0)%Z; discriminate.
Qed.
Lemma words_spaces b t : blanks b -> words (b ++ t) = words t.
Proof. intros B. unfold words. apply words_blank; auto. Qed.

(** * values *)
Definition vwords (f : text * option text) : list text := match snd f with None => [fst f] | Some u => [fst f; u] end.
Definition good (f : text * option text) : Prop :=
  word (fst f) /\ paren (fst f) = false /\ match snd f with Some u => word u /\ paren u = true | None => True end.
Lemma values_good xs : Forall good xs -> values (concat (map vwords xs)) = xs.
Proof.
  induction 1 as [|[w [u|]] xs G F IH]; auto; destruct G as (_ & _ & G).
  - cbn [map concat vwords fst snd app values]. rewrite (proj2 G). rewrite IH. auto.
  - cbn [map concat vwords fst snd app values]. destruct (concat (map vwords xs)) as [|s r] eqn:E.
    + destruct xs as [|[a [b|]] xs]; try discriminate. auto.
    + assert (paren s = false) as ->. { destruct xs as [|x xs]; [discriminate E|]. pose proof (Forall_inv F) as (_ & P & _). destruct x as [a [b|]]; cbn in E; injection E as <- _; auto. }
      rewrite IH. auto.
Qed.
Lemma std_word P x dx s : std_part P x dx s -> s = [] \/ exists u, s = " "%char :: u /\ word u /\ paren u = true.
Proof.
  destruct dx as [dx|]; cbn [std_part].
  - intros [A B]. destruct (Classical_Prop.classic (matters x dx)) as [M|M]; auto. destruct (A M) as (n & -> & OK & _). right.
    exists ("("%char :: print_numeral n ++ chars ")"). repeat split; auto; try discriminate. constructor. reflexivity. apply Forall_app; split.
    apply numeral_word; auto. repeat constructor.
  - intros ->. right. exists (chars "(NaN)"). repeat split; auto; try discriminate. repeat constructor.
Qed.
Lemma put_words f v : f_std_precision f = 2%nat -> vstd_ok v ->
  exists x, shown x v /\ good x /\ one_line (put f v) /\ (f_leading_blank f = true -> forall r, starts_blank (put f v ++ r)) /\
    forall r, starts_blank r -> words (put f v ++ r) = vwords x ++ words r.
Proof.
  intros P [Vx Vd]. destruct (field_ok f (fst v) (snd v)) as (w & s & b1 & b2 & E & B & _ & _ & V & S); auto. lia.
  unfold put. rewrite E. apply Forall_app in B as [B1 B2]. pose proof (part_word _ _ V) as [W NP]. rewrite P in S.
  set (b := b1 ++ if f_leading_blank f then [" "%char] else []).
  assert (Forall (fun c => c = " "%char) b) as Bb. { apply Forall_app; split; auto. destruct (f_leading_blank f); repeat constructor. }
  assert (forall r, (b1 ++ (if f_leading_blank f then [" "%char] else []) ++ w ++ s ++ b2) ++ r = b ++ w ++ s ++ b2 ++ r) as EQ. { intros r. unfold b. rewrite <- !app_assoc. auto. }
  assert (forall r, starts_blank r -> starts_blank (b2 ++ r)) as SB. { intros r R. destruct b2; auto. inversion B2; subst. reflexivity. }
  exists (w, match s with [] => None | _ :: u => Some u end).
  assert (shown (w, match s with [] => None | _ :: u => Some u end) v) as SH.
  { split; auto. cbn [fst snd]. destruct (snd v) as [dx|]; cbn [std_part] in S.
    - destruct S as [S1 S2]. split; intros M. destruct (S1 M) as (n & -> & Sn). exists n. auto. rewrite (S2 M). auto.
    - rewrite S. auto. }
  pose proof (std_word _ _ _ _ S) as [-> | (u & -> & U & PU)].
  - split; [exact SH|]. split; [exact (conj W (conj NP I))|]. split; [|split].
    + rewrite <- (app_nil_r (b1 ++ _)), EQ. rewrite !one_app. repeat split. apply blank_line; auto. apply word_line; auto. intros []. apply blank_line; auto. intros [].
    + intros LB r. rewrite EQ. unfold b. rewrite LB. destruct b1; simpl; auto. inversion B1; subst. reflexivity.
    + intros r R. rewrite EQ. cbn [app]. rewrite words_word; auto. rewrite words_spaces; auto. apply all_blanks; auto. apply all_blanks; auto.
  - split; [exact SH|]. split; [exact (conj W (conj NP (conj U PU)))|]. split; [|split].
    + rewrite <- (app_nil_r (b1 ++ _)), EQ. rewrite !one_app. repeat split. apply blank_line; auto. apply word_line; auto.
      intros [Q|Q]. discriminate. exact (word_line _ U Q). apply blank_line; auto. intros [].
    + intros LB r. rewrite EQ. unfold b. rewrite LB. destruct b1; simpl; auto. inversion B1; subst. reflexivity.
    + intros r R. rewrite EQ. rewrite words_word; auto; [|apply all_blanks; auto|reflexivity]. cbn [vwords fst snd app]. f_equal.
      change (words ([" "%char] ++ u ++ b2 ++ r) = u :: words r). rewrite words_word; auto. rewrite words_spaces; auto. apply all_blanks; auto. repeat constructor.
Qed.
(** a row of values *)
Fixpoint row (fs : list (fmt * vstd)) : text := match fs with [] => [] | (f, v) :: r => put f v ++ row r end.
Lemma row_words fs : Forall (fun x => f_std_precision (fst x) = 2%nat /\ vstd_ok (snd x)) fs -> Forall (fun x => f_leading_blank (fst x) = true) (tl fs) ->
  exists xs, Forall2 shown xs (map snd fs) /\ Forall good xs /\ one_line (row fs) /\
    (fs <> [] -> Forall (fun x => f_leading_blank (fst x) = true) fs -> forall r, starts_blank (row fs ++ r)) /\
    forall r, starts_blank r -> words (row fs ++ r) = concat (map vwords xs) ++ words r.
Proof.
  induction 1 as [|[f v] fs [P V] F IH]; intros L; cbn [fst snd tl] in *.
  - exists []. split. constructor. split; auto. split. intros []. split. congruence. auto.
  - destruct IH as (xs & A & G & O & SB & W). destruct fs; inversion L; auto.
    destruct (put_words f v P V) as (x & Sx & Gx & Ox & Bx & Wx). exists (x :: xs). split. constructor; auto. split; auto. split. apply one_app; auto.
    cbn [row]. split.
    + intros _ LL r. inversion LL; subst. rewrite <- app_assoc. apply Bx; auto.
    + intros r R. rewrite <- app_assoc. rewrite Wx. rewrite W by auto. cbn [map concat]. rewrite <- app_assoc. auto.
      destruct fs. exact R. apply SB; auto. discriminate.
Qed.
Lemma row_values fs : Forall (fun x => f_std_precision (fst x) = 2%nat /\ vstd_ok (snd x)) fs -> Forall (fun x => f_leading_blank (fst x) = true) (tl fs) ->
  one_line (row fs) /\ exists ws, words (row fs) = ws /\ Forall2 shown (values ws) (map snd fs) /\
    (forall r, starts_blank r -> words (row fs ++ r) = ws ++ words r) /\
    (fs <> [] -> Forall (fun x => f_leading_blank (fst x) = true) fs -> forall r, starts_blank (row fs ++ r)).
Proof.
  intros A B. destruct (row_words fs A B) as (xs & S & G & O & SB & W). split; auto. exists (concat (map vwords xs)). split.
  - pose proof (W [] I) as E. rewrite !app_nil_r in E. exact E.
  - split. rewrite values_good by auto. auto. split; auto.
Qed.
Lemma put3_row v i : put3 v i = row [(f_col, v i); (f_col, v (i + 1)%nat); (f_last, v (i + 2)%nat)].
Proof. unfold put3. cbn [row]. rewrite app_nil_r. auto. Qed.
Lemma put_row f v : put f v = row [(f, v)].
Proof. cbn [row]. rewrite app_nil_r. auto. Qed.

(** * lines *)
Lemma lines_ln a r : one_line a -> lines (ln a ++ r) = a :: lines r.
Proof.
  unfold ln. rewrite <- app_assoc. cbn [app]. induction a as [|c a IH]; intros O. reflexivity.
  cbn [app lines]. destruct (Ascii.eqb_spec c "010") as [->|N]. destruct O. left; auto. rewrite IH. auto. intros I. apply O. right; auto.
Qed.
Lemma lines_many ls r : Forall one_line ls -> lines (concat (map ln ls) ++ r) = ls ++ lines r.
Proof. induction 1 as [|l ls O F IH]; auto. cbn [map concat]. rewrite <- app_assoc, lines_ln by auto. rewrite IH. auto. Qed.
Lemma parts_app x a r : ~ In x a -> parts x (a ++ x :: r) = a :: parts x r.
Proof.
  induction a as [|l a IH]; intros N; cbn [app parts]. rewrite (proj2 (teq x x)); auto.
  rewrite (proj2 (tneq l x)). rewrite IH; auto. intros I; apply N; right; auto. intros ->. apply N. left; auto.
Qed.
Lemma rule_dashes : rule = dashes. Proof. reflexivity. Qed.
Lemma strip_app x t : strip x (x ++ t) = Some t.
Proof. induction x as [|c x IH]; auto. cbn [app strip]. rewrite Ascii.eqb_refl. auto. Qed.
Lemma strip_some x t r : strip x t = Some r -> t = x ++ r.
Proof.
  revert t. induction x as [|c x IH]; intros t; simpl. congruence. destruct t as [|d t]; [discriminate|].
  destruct (Ascii.eqb_spec c d) as [->|]; [|discriminate]. intros H. rewrite (IH _ H). auto.
Qed.
Lemma labelled_skip x ls r : Forall (fun l => strip x l = None) ls -> labelled x (ls ++ r) = labelled x r.
Proof. induction 1 as [|l ls S F IH]; auto. cbn [app labelled]. rewrite S. auto. Qed.
Lemma after_skip x ls r : ~ In x ls -> after x (ls ++ x :: r) = r.
Proof.
  induction ls as [|l ls IH]; intros N; cbn [app after]. rewrite (proj2 (teq x x)); auto.
  rewrite (proj2 (tneq l x)). apply IH. intros I; apply N; right; auto. intros ->. apply N. left; auto.
Qed.
Lemma upto_app ls r : ~ In [] ls -> upto_empty (ls ++ [] :: r) = ls.
Proof.
  induction ls as [|l ls IH]; intros N; auto. destruct l as [|c l]. destruct N; left; auto. cbn [app upto_empty]. rewrite IH; auto. intros I; apply N; right; auto.
Qed.
