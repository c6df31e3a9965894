(** Lemmas for reading data. *)
From Coq Require Import Ascii String List Arith ZArith Reals Bool Lia Lra.
From Verif Require Import Base ParserModel ParserLex PdfModel PdfSpec DataModel DataSpec.
Import ListNotations.
Local Open Scope R_scope.

(** * numbers *)
Lemma lt10 k (P : nat -> Prop) : P 0%nat -> P 1%nat -> P 2%nat -> P 3%nat -> P 4%nat -> P 5%nat -> P 6%nat -> P 7%nat -> P 8%nat -> P 9%nat ->
  (k < 10)%nat -> P k.
Proof. intros. do 10 (destruct k as [|k]; auto). lia. Qed.

Lemma pd_digit d : Forall (fun k => (k < 10)%nat) d -> Forall (fun c => is_digit c = true) (print_digits d).
Proof. unfold print_digits. intros F. apply Forall_map. eapply Forall_impl; [|exact F]. intros k H. simpl. pattern k. apply lt10; auto. Qed.
Lemma digit_val_pd k : (k < 10)%nat -> digit_val (ascii_of_nat (48 + k)) = Z.of_nat k.
Proof. intros H. pattern k. apply lt10; auto. Qed.

Lemma fold_digits d a : Forall (fun k => (k < 10)%nat) d ->
  fold_left (fun a c => (10 * a + digit_val c)%Z) (print_digits d) a = (a * 10 ^ Z.of_nat (length d) + whole_z d)%Z.
Proof.
  revert a; induction d as [|k d IH]; intros a F.
  - cbn [print_digits map fold_left length whole_z]. rewrite Z.pow_0_r. lia.
  - inversion F; subst. cbn [print_digits map fold_left]. fold (print_digits d). rewrite IH by auto. rewrite digit_val_pd by auto.
    cbn [length whole_z]. rewrite Nat2Z.inj_succ, Z.pow_succ_r by lia. ring.
Qed.
Lemma digits_val_pd d : Forall (fun k => (k < 10)%nat) d -> digits_val (print_digits d) = whole_z d.
Proof. intros F. unfold digits_val. rewrite fold_digits by auto. lia. Qed.
Lemma whole_z_R d : IZR (whole_z d) = whole d.
Proof.
  induction d as [|k d IH]; cbn [whole_z whole]; auto.
  rewrite plus_IZR, mult_IZR, IH, <- INR_IZR_INZ, <- pow_IZR. auto.
Qed.
Lemma whole_app a b : whole (a ++ b) = whole a * 10 ^ length b + whole b.
Proof. induction a as [|k a IH]; cbn [app whole]; [ring|]. rewrite IH, app_length, pow_add. ring. Qed.
Lemma fraction_whole d : fraction d * 10 ^ length d = whole d.
Proof.
  induction d as [|k d IH]; cbn [fraction whole length]; [ring|]. rewrite <- IH. cbn [pow]. field.
Qed.
Lemma p10 n : 10 ^ n <> 0. Proof. apply pow_nonzero; lra. Qed.

Lemma starts_nds l : starts_blank l -> nds l.
Proof.
  destruct l as [|c l]; simpl; auto. unfold is_space, is_digit. intros H.
  destruct (Nat.leb_spec 48 (nat_of_ascii c)); simpl; auto.
  destruct (Nat.leb_spec (nat_of_ascii c) 57); simpl; auto.
  apply orb_prop in H as [H|H]. apply Nat.eqb_eq in H; lia. apply andb_prop in H as [_ H]. apply Nat.leb_le in H. lia.
Qed.
Lemma starts_ne l c : starts_blank (c :: l) -> is_space c = true. Proof. auto. Qed.
Lemma space_ne c x : is_space c = true -> is_space x = false -> Ascii.eqb c x = false.
Proof. intros A B. destruct (Ascii.eqb_spec c x); auto. congruence. Qed.

Lemma sign_print s r : match r with [] => True | c :: _ => c <> "-"%char /\ c <> "+"%char end ->
  sign_split (print_sign s ++ r) = (match s with Some true => true | _ => false end, r).
Proof.
  destruct s as [[|]|]; simpl; auto. destruct r as [|c r]; simpl; auto.
  intros [A B]. destruct (Ascii.eqb_spec c "-"); [congruence|]. destruct (Ascii.eqb_spec c "+"); [congruence|]. auto.
Qed.
Lemma digit_not c : is_digit c = true -> c <> "-"%char /\ c <> "+"%char /\ c <> "."%char /\ c <> "#"%char /\ c <> "H"%char /\ is_space c = false.
Proof.
  intros H. repeat split; try (intros ->; discriminate).
  destruct (is_space c) eqn:E; auto. exfalso. pose proof (starts_nds [c] E). simpl in *. congruence.
Qed.

Definition exp_text (e : option (bool * option bool * list nat)) : text :=
  match e with None => [] | Some (up, s, d) => (if up : bool then "E"%char else "e"%char) :: print_sign s ++ print_digits d end.
Lemma scan_exp_print e r : starts_blank r ->
  match e with None => True | Some (_, _, d) => Forall (fun k => (k < 10)%nat) d /\ d <> [] end ->
  scan_exp (exp_text e ++ r) = Some (match e with None => 0%Z | Some (_, s, d) => (sign_of s * whole_z d)%Z end, r).
Proof.
  intros B H. destruct e as [[[up s] d]|].
  - destruct H as [F N]. cbn [exp_text app]. unfold scan_exp.
    replace (Ascii.eqb (if up then "E"%char else "e"%char) "e" || Ascii.eqb (if up then "E"%char else "e"%char) "E")%bool with true by (destruct up; auto).
    rewrite <- app_assoc, sign_print.
    + rewrite span_digits_app by (auto using pd_digit, starts_nds).
      destruct (print_digits d) as [|c q] eqn:E. destruct d; [congruence|discriminate].
      rewrite <- E, digits_val_pd by auto. do 3 f_equal. destruct s as [[|]|]; cbn [sign_of]; lia.
    + pose proof (pd_digit _ F). destruct (print_digits d) as [|c q] eqn:E. destruct d; [congruence|discriminate].
      inversion H; subst. simpl. destruct (digit_not _ H2) as (?&?&_). auto.
  - simpl. destruct r as [|c r]; simpl; auto. rewrite (space_ne c "e"), (space_ne c "E"); auto.
Qed.
Lemma exp_nds e r : starts_blank r -> nds (exp_text e ++ r) /\ match exp_text e ++ r with [] => True | c :: _ => c <> "."%char end.
Proof.
  intros B. destruct e as [[[up s] d]|]; simpl.
  - destruct up; split; auto; discriminate.
  - split. apply starts_nds; auto. destruct r; auto. intros ->. discriminate.
Qed.

Lemma scan_float_print i f e r : starts_blank r ->
  Forall (fun k => (k < 10)%nat) i -> Forall (fun k => (k < 10)%nat) (match f with None => [] | Some d => d end) ->
  (i ++ match f with None => [] | Some d => d end <> []) ->
  match e with None => True | Some (_, _, d) => Forall (fun k => (k < 10)%nat) d /\ d <> [] end ->
  scan_float (print_digits i ++ (match f with None => [] | Some d => "."%char :: print_digits d end) ++ exp_text e ++ r) =
  Some (whole_z (i ++ match f with None => [] | Some d => d end),
        (match e with None => 0%Z | Some (_, s, d) => (sign_of s * whole_z d)%Z end - Z.of_nat (length (match f with None => [] | Some d => d end)))%Z, r).
Proof.
  intros B Fi Ff Ne He. unfold scan_float. pose proof (exp_nds e r B) as [N D].
  rewrite span_digits_app; [|apply pd_digit; auto|destruct f; simpl; auto].
  assert (scan_frac ((match f with None => [] | Some d => "."%char :: print_digits d end) ++ exp_text e ++ r) =
          (print_digits (match f with None => [] | Some d => d end), exp_text e ++ r)) as ->.
  { destruct f as [d|].
    - cbn [app scan_frac]. rewrite Ascii.eqb_refl. apply span_digits_app; auto using pd_digit.
    - cbn [app print_digits map]. unfold scan_frac. revert D. destruct (exp_text e ++ r) as [|c q]; auto. intros D. destruct (Ascii.eqb_spec c "."); [congruence|reflexivity]. }
  unfold print_digits at 1 2. rewrite <- map_app. fold (print_digits (i ++ match f with None => [] | Some d => d end)).
  destruct (print_digits (i ++ _)) as [|c q] eqn:E.
  - destruct (i ++ _); [congruence|discriminate].
  - rewrite scan_exp_print by auto. rewrite <- E, digits_val_pd by (apply Forall_app; auto).
    unfold print_digits. rewrite map_length. auto.
Qed.

Lemma skipws_blanks b r : blanks b -> skipws (b ++ r) = skipws r.
Proof. induction b as [|c b IH]; simpl; auto. intros F. inversion F; subst. rewrite H1. auto. Qed.

(** first character of a number *)
Lemma print_head n : numeral_ok n -> exists c q, print_numeral n = c :: q /\ is_space c = false /\ c <> "#"%char /\ c <> "H"%char.
Proof.
  intros (Fi & Ff & Ne & He). unfold print_numeral. destruct (nu_sign n) as [[|]|]; simpl; eauto.
  - eexists _, _; split; [reflexivity|]. repeat split; discriminate.
  - eexists _, _; split; [reflexivity|]. repeat split; discriminate.
  - pose proof (pd_digit _ Fi) as P. destruct (print_digits (nu_int n)) as [|c q] eqn:E; simpl.
    + destruct (nu_int n); [|discriminate]. destruct (nu_frac n); simpl in *; [|congruence].
      eexists _, _; split; [reflexivity|]. repeat split; discriminate.
    + inversion P; subst. destruct (digit_not _ H1) as (?&?&?&?&?&?). eexists _, _; split; [reflexivity|]. auto.
Qed.

Lemma print_split n : print_numeral n = print_sign (nu_sign n) ++ print_digits (nu_int n) ++
  (match nu_frac n with None => [] | Some d => "."%char :: print_digits d end) ++ exp_text (nu_exp n).
Proof. reflexivity. Qed.
Lemma scan_double_print b n r : blanks b -> numeral_ok n -> starts_blank r ->
  scan_double (b ++ print_numeral n ++ r) = Some (numeral_value n, r).
Proof.
  intros B OK S. unfold scan_double. rewrite skipws_blanks by auto.
  destruct (print_head _ OK) as (c & q & E & Sp & _). destruct OK as (Fi & Ff & Ne & He).
  assert (skipws (print_numeral n ++ r) = print_numeral n ++ r) as ->. { rewrite E. simpl. rewrite Sp. auto. }
  clear c q E Sp. rewrite print_split, <- !app_assoc.
  rewrite sign_print.
  - rewrite scan_float_print by auto. do 2 f_equal. unfold dec_val, numeral_value.
    rewrite whole_z_R, whole_app.
    unfold Z.sub. rewrite powerRZ_add by lra. rewrite powerRZ_neg', <- pow_powerRZ.
    destruct (nu_frac n) as [d|].
    + rewrite <- (fraction_whole d). pose proof (p10 (length d)).
      destruct (nu_exp n) as [[[up s] ds]|]; destruct (nu_sign n) as [[|]|]; cbn [sign_of]; try (rewrite powerRZ_O); field; auto.
    + cbn [length pow whole].
      destruct (nu_exp n) as [[[up s] ds]|]; destruct (nu_sign n) as [[|]|]; cbn [sign_of]; try (rewrite powerRZ_O); field; auto.
  - pose proof (pd_digit _ Fi) as P. destruct (print_digits (nu_int n)) as [|c q] eqn:E; simpl.
    + destruct (nu_int n); [|discriminate]. destruct (nu_frac n); simpl in *; [|congruence]. split; discriminate.
    + inversion P; subst. destruct (digit_not _ H1) as (?&?&?). auto.
Qed.

Lemma scan_float_none c r : is_digit c = false -> c <> "."%char -> scan_float (c :: r) = None.
Proof.
  intros D P. unfold scan_float. simpl. rewrite D. unfold scan_frac. destruct (Ascii.eqb_spec c "."); [congruence|]. auto.
Qed.
Lemma scan_double_none l : no_number l -> scan_double l = None.
Proof.
  intros (b & r & -> & B & H). unfold scan_double. rewrite skipws_blanks by auto. destruct r as [|c r]; [reflexivity|].
  destruct H as (Sp & D & P & Pl & Mi). simpl. rewrite Sp. simpl. destruct (Ascii.eqb_spec c "-"); [congruence|].
  destruct (Ascii.eqb_spec c "+"); [congruence|]. rewrite scan_float_none; auto.
Qed.

(** * rows *)
Lemma print_row_cons b n row tr : print_row ((b, n) :: row) tr = b ++ print_numeral n ++ print_row row tr.
Proof. unfold print_row. simpl. rewrite <- !app_assoc. auto. Qed.
Lemma row_ok_cons x row tr : row_ok (x :: row) tr -> blanks (fst x) /\ numeral_ok (snd x) /\ row_ok row tr /\ starts_blank (print_row row tr).
Proof.
  intros (F & T & N & S). inversion F; subst. destruct H1. split; auto. split; auto. destruct S as [S|S]; [discriminate|]. split.
  - split; auto. split. simpl in T. destruct row; simpl; auto. inversion T; auto. split; auto.
  - simpl in T. destruct row as [|[b n] row]; auto. inversion T; subst. inversion H2; subst. destruct H6 as [Bb _]. simpl in *.
    rewrite print_row_cons. destruct b; [congruence|]. inversion Bb; subst. simpl. auto.
Qed.
Lemma scan_row b n row tr : row_ok ((b, n) :: row) tr -> scan_double (print_row ((b, n) :: row) tr) = Some (numeral_value n, print_row row tr).
Proof. intros H. apply row_ok_cons in H as (B & N & _ & S). rewrite print_row_cons. apply scan_double_print; auto. Qed.
Lemma scan_end tr : row_ok [] tr -> scan_double (print_row [] tr) = None.
Proof. intros (_ & _ & N & _). apply scan_double_none; auto. Qed.

Lemma columns_row row tr f : row_ok row tr -> (length row <= f)%nat -> columns f (print_row row tr) = length row.
Proof.
  revert f; induction row as [|[b n] row IH]; intros f OK L.
  - destruct f; simpl columns; auto. rewrite scan_end; auto.
  - destruct f; simpl in L; [lia|]. cbn [columns]. rewrite scan_row by auto.
    apply row_ok_cons in OK as (_ & _ & OK & _). rewrite IH; auto. lia.
Qed.
Lemma row_length row tr : row_ok row tr -> (length row <= length (print_row row tr))%nat.
Proof.
  induction row as [|[b n] row IH]; intros OK. simpl; lia.
  apply row_ok_cons in OK as (_ & N & OK & _). rewrite print_row_cons, !app_length. specialize (IH OK).
  cbn [snd] in N. destruct (print_head _ N) as (c & q & E & _). rewrite E. simpl. lia.
Qed.

(** * streams as lists of lines *)
Definition eof : stream := mkStr [] true.
Definition after (ls : list text) (fin : bool) : stream :=
  match ls with [] => if fin then mkStr [] false else eof | _ => mkStr (text_of ls fin) false end.
(** good lines without the condition for the empty text *)
Definition glines (ls : list text) (fin : bool) : Prop :=
  Forall (fun l => ~ In newline l) ls /\ (fin = false -> last ls ["x"%char] <> []).
Lemma glines_cons l ls fin : glines (l :: ls) fin -> glines ls fin.
Proof.
  intros [F L]. inversion F; subst. split; auto. intros E. specialize (L E). destruct ls; simpl in *; auto; discriminate.
Qed.
Lemma glines_app a b fin : glines (a ++ b) fin -> glines b fin.
Proof. induction a; simpl; auto. intros H. apply glines_cons in H. auto. Qed.
Lemma getline_cons l ls fin x : glines (l :: ls) fin -> getline (after (l :: ls) fin) x = (l, after ls fin, true).
Proof.
  intros [F L]. inversion F; subst. change (after (l :: ls) fin) with (mkStr (text_of (l :: ls) fin) false). unfold getline. cbn [st_eof st_rest]. destruct ls as [|l' ls].
  - cbn [text_of]. destruct fin.
    + cbv iota. rewrite split_at_app by auto. reflexivity.
    + cbv iota. destruct (split_at_none newline l) as [_ K]. rewrite K by auto. specialize (L eq_refl). simpl in L. destruct l; [congruence|]. reflexivity.
  - cbn [text_of]. rewrite split_at_app by auto. reflexivity.
Qed.
Lemma getline_end fin x : getline (after [] fin) x = (if fin then [] else x, eof, false).
Proof. destruct fin; reflexivity. Qed.
Lemma after_eof ls fin : st_eof (after ls fin) = match ls with [] => negb fin | _ => false end.
Proof. destruct ls, fin; reflexivity. Qed.

Lemma comment_hash l : comment l <-> hash_line l = true.
Proof.
  unfold comment, hash_line. destruct l as [|c l]. split; [intros (r & H)|]; discriminate.
  split. intros (r & H). inversion H; subst. auto. intros H. apply Ascii.eqb_eq in H. subst. eauto.
Qed.

Lemma comments_stuck f ls line : comment line -> Forall comment ls -> glines ls false -> skip_comments f (after ls false) line = NoFuel.
Proof.
  revert ls line; induction f; intros ls line C F G; auto. cbn [skip_comments].
  assert (hash_line line = true) as -> by (apply comment_hash; auto).
  destruct ls as [|l ls].
  - rewrite getline_end. apply (IHf [] line); auto.
  - rewrite getline_cons by auto. inversion F; subst. apply IHf; auto. eapply glines_cons; eauto.
Qed.
Lemma comments_done f ls line com l rest fin : line :: ls = com ++ l :: rest -> Forall comment com -> ~ comment l -> glines ls fin ->
  (length com < f)%nat -> skip_comments f (after ls fin) line = Ok (after rest fin, l).
Proof.
  revert ls line f; induction com as [|c com IH]; intros ls line f E F N G L; simpl in L; (destruct f; [lia|]); cbn [skip_comments]; inversion E; subst.
  - destruct (hash_line l) eqn:H; auto. apply comment_hash in H. tauto.
  - inversion F; subst. assert (hash_line c = true) as -> by (apply comment_hash; auto).
    destruct (com ++ l :: rest) as [|l' ls'] eqn:E2. destruct com; discriminate.
    rewrite getline_cons by auto. apply IH; auto. eapply glines_cons; eauto. lia.
Qed.
Lemma comments_end f ls line : comment line -> Forall comment ls -> glines ls true -> (S (length ls) < f)%nat ->
  skip_comments f (after ls true) line = Ok (eof, []).
Proof.
  revert ls line; induction f; intros ls line C F G L. lia. cbn [skip_comments].
  assert (hash_line line = true) as -> by (apply comment_hash; auto).
  destruct ls as [|l ls].
  - rewrite getline_end. destruct f; [simpl in L; lia|]. reflexivity.
  - rewrite getline_cons by auto. inversion F; subst. apply IHf; auto. eapply glines_cons; eauto. simpl in L; lia.
Qed.
(** comments and the rest *)
Lemma split_comments (ls : list text) : Forall comment ls \/ exists com l rest, ls = com ++ l :: rest /\ Forall comment com /\ ~ comment l.
Proof.
  induction ls as [|l ls IH]; auto. destruct (hash_line l) eqn:H.
  - apply comment_hash in H. destruct IH as [IH|(com & x & r & -> & F & N)]; [left; auto|]. right. exists (l :: com), x, r. auto.
  - right. exists [], l, ls. split; auto. split; auto. intros C. apply comment_hash in C. congruence.
Qed.

(** ** the start line *)
Definition word (w : text) : Prop := Forall (fun c => is_space c = false) w /\ w <> [].
Lemma words_blank b l : blanks b -> words_from [] (b ++ l) = words_from [] l.
Proof. induction b as [|c b IH]; simpl; auto. intros F. inversion F; subst. rewrite H1. auto. Qed.
Lemma words_from_word w acc l : Forall (fun c => is_space c = false) w -> (w <> [] \/ acc <> []) -> starts_blank l ->
  words_from acc (w ++ l) = (rev acc ++ w) :: words_from [] l.
Proof.
  revert acc; induction w as [|c w IH]; intros acc F N S.
  - rewrite app_nil_r. destruct N as [N|N]; [congruence|]. simpl. destruct l as [|c l]; simpl.
    + destruct acc; [congruence|]. auto.
    + simpl in S. rewrite S. destruct acc; [congruence|]. auto.
  - inversion F; subst. cbn [words_from app]. rewrite H1. rewrite IH; auto. simpl rev. rewrite <- app_assoc. auto. right; discriminate.
Qed.
Lemma words_word b w l : blanks b -> word w -> starts_blank l -> words (b ++ w ++ l) = w :: words l.
Proof. intros B [F N] S. unfold words. rewrite words_blank by auto. rewrite words_from_word; auto. Qed.
Lemma words_split l w ws : words l = w :: ws -> exists b r, l = b ++ w ++ r /\ blanks b /\ word w /\ starts_blank r /\ words r = ws.
Proof.
  assert (forall acc, Forall (fun c => is_space c = false) acc -> words_from acc l = w :: ws ->
    match acc with
    | [] => exists b r, l = b ++ w ++ r /\ blanks b /\ word w /\ starts_blank r /\ words r = ws
    | _ => exists v r, l = v ++ r /\ w = rev acc ++ v /\ Forall (fun c => is_space c = false) v /\ starts_blank r /\ words r = ws
    end) as K.
  { induction l as [|c l IH]; intros acc F H.
    - simpl in H. destruct acc as [|a acc]; [discriminate|]. inversion H; subst. exists [], []. simpl. rewrite !app_nil_r. repeat split; auto.
    - cbn [words_from] in H. destruct (is_space c) eqn:E.
      + destruct acc as [|a acc].
        * destruct (IH [] F H) as (b & r & -> & B & W). exists (c :: b), r. split; auto. split; auto. constructor; auto.
        * inversion H; subst. exists [], (c :: l). rewrite app_nil_r. repeat split; auto. unfold words. simpl. rewrite E. auto.
      + specialize (IH (c :: acc) ltac:(auto) H). cbv beta iota in IH. destruct IH as (v & r & -> & -> & Fv & S & W).
        destruct acc as [|a acc].
        * exists [], r. simpl. split; auto. split; [constructor|]. split; auto. split; auto. discriminate.
        * exists (c :: v), r. split; auto. split. simpl. rewrite <- !app_assoc. auto. auto. }
  intros H. apply (K [] ltac:(auto) H).
Qed.
Lemma text_eqb_eq a b : text_eqb a b = true <-> a = b.
Proof. unfold text_eqb. destruct (list_eq_dec ascii_dec a b); split; auto; try discriminate; tauto. Qed.

Lemma blanks_starts b r : blanks b -> b <> [] -> starts_blank (b ++ r).
Proof. destruct b; [congruence|]. intros F _. inversion F; subst. auto. Qed.
Lemma repeat_hash w : forallb (fun c => Ascii.eqb c "#") w = true <-> w = repeat "#"%char (length w).
Proof.
  induction w as [|c w IH]; simpl. tauto. rewrite andb_true_iff, IH, Ascii.eqb_eq. split.
  - intros [-> H]. f_equal; auto.
  - intros H. split. congruence. injection H; auto.
Qed.
Lemma start_ok l : is_start l <-> start_line l = true.
Proof.
  unfold start_line. split.
  - intros (k & b1 & b2 & rest & -> & B1 & N1 & B2 & N2 & Sb). cbn [repeat app hash_line]. rewrite Ascii.eqb_refl. rewrite andb_true_l.
    assert (word (repeat "#"%char (S k))) as W. { split; [|discriminate]. apply Forall_forall. intros x I. apply repeat_spec in I. subst. auto. }
    change ("#"%char :: repeat "#"%char k ++ b1 ++ chars "start" ++ b2 ++ chars "data" ++ rest) with
      ([] ++ repeat "#"%char (S k) ++ b1 ++ chars "start" ++ b2 ++ chars "data" ++ rest).
    rewrite (words_word []); auto; [|constructor|apply blanks_starts; auto].
    rewrite (words_word b1); auto; [|split; [repeat constructor|discriminate]|apply blanks_starts; auto].
    rewrite (words_word b2); auto; [|split; [repeat constructor|discriminate]].
    cbn [nth]. rewrite !andb_true_iff. split; [split|]; try (apply text_eqb_eq; auto).
    apply repeat_hash. rewrite repeat_length. auto.
  - rewrite !andb_true_iff. intros (H & (P & A) & B). apply text_eqb_eq in A, B.
    destruct (words l) as [|w0 ws] eqn:E; [destruct l; discriminate|].
    destruct ws as [|w1 ws]; [discriminate|]. destruct ws as [|w2 ws]; [discriminate|]. simpl in A, B, P. subst w1 w2.
    apply words_split in E as (b0 & r0 & -> & B0 & W0 & S0 & E). apply words_split in E as (b1 & r1 & -> & B1 & W1 & S1 & E).
    apply words_split in E as (b2 & r2 & -> & B2 & W2 & S2 & E).
    assert (b0 = []) as ->. { destruct b0; auto. inversion B0; subst. simpl in H. apply Ascii.eqb_eq in H. subst. discriminate. }
    destruct W0 as [W0 N0]. apply repeat_hash in P. rewrite P. destruct w0 as [|c w0]; [congruence|].
    exists (length w0), b1, b2, r2. split; [reflexivity|]. split; auto. split. { intros ->. simpl in S0. discriminate. }
    split; auto. split; auto. { intros ->. simpl in S1. discriminate. }
Qed.

Lemma history_done f ls line pre l rest fin : line :: ls = pre ++ l :: rest -> Forall (fun x => ~ is_start x) pre ->
  (is_start l \/ (rest = [] /\ fin = false)) -> glines ls fin -> (length pre < f)%nat ->
  skip_history f (after ls fin) line = Ok (after rest fin, l).
Proof.
  revert ls line f; induction pre as [|p pre IH]; intros ls line f E F N G L; simpl in L; (destruct f; [lia|]); cbn [skip_history]; inversion E; subst.
  - destruct (st_eof (after rest fin)) eqn:H; auto. destruct N as [N|[-> ->]]; [|discriminate]. apply start_ok in N. rewrite N. auto.
  - rewrite after_eof. destruct (pre ++ l :: rest) as [|l' ls'] eqn:E2. destruct pre; discriminate.
    inversion F; subst. destruct (start_line p) eqn:Es. apply start_ok in Es; tauto.
    rewrite getline_cons by auto. apply IH; auto. eapply glines_cons; eauto. lia.
Qed.
Lemma history_end f ls line : ~ is_start line -> Forall (fun x => ~ is_start x) ls -> glines ls true -> (S (length ls) < f)%nat ->
  skip_history f (after ls true) line = Ok (eof, []).
Proof.
  revert ls line; induction f; intros ls line C F G L. lia. cbn [skip_history]. rewrite after_eof.
  destruct (start_line line) eqn:Es. apply start_ok in Es; tauto.
  destruct ls as [|l ls].
  - simpl negb. cbv iota. rewrite getline_end. destruct f; [simpl in L; lia|]. reflexivity.
  - rewrite getline_cons by auto. inversion F; subst. apply IHf; auto. eapply glines_cons; eauto. simpl in L; lia.
Qed.
Lemma split_start (ls : list text) : Forall (fun x => ~ is_start x) ls \/ exists pre l rest, ls = pre ++ l :: rest /\ Forall (fun x => ~ is_start x) pre /\ is_start l.
Proof.
  induction ls as [|l ls IH]; auto. destruct (start_line l) eqn:H.
  - right. exists [], l, ls. split; auto. split; auto. apply start_ok; auto.
  - assert (~ is_start l) by (intros C; apply start_ok in C; congruence).
    destruct IH as [IH|(pre & x & r & -> & F & N)]; [left; auto|]. right. exists (l :: pre), x, r. auto.
Qed.

(** ** termination of the loop over rows *)
Lemma rows_total f ncol ls fin line lwei : glines ls fin -> (length ls < f)%nat -> read_rows f ncol (after ls fin) line lwei <> NoFuel.
Proof.
  revert ls line lwei; induction f; intros ls line lwei G L. lia. cbn [read_rows].
  destruct (scan_double line) as [[ri l1]|]; [|discriminate]. destruct (scan_double l1) as [[ob l2]|]; [|discriminate].
  destruct (row_weight ncol l2 lwei) as [wic lw]. destruct ls as [|l ls].
  - rewrite getline_end. discriminate.
  - rewrite getline_cons by auto. specialize (IHf ls l lw (glines_cons _ _ _ G) ltac:(simpl in L; lia)).
    destruct (read_rows f ncol (after ls fin) l lw); simpl; congruence.
Qed.
