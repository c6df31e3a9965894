(** The section of the results text about a data set, and the whole text. *)
From Coq Require Import Ascii String List Arith ZArith Reals Bool Lia Lra.
From Verif Require Import Base ParserModel ParserLex DataModel DataSpec DataProof FmtModel FmtSpec FmtProof FmtGen FmtFinal ElementTable ScatModel SaveModel ReportModel ReportSpec ReportSel ReportFinal OutModel OutSpec OutProof OutPhase.
Import ListNotations.
Local Open Scope R_scope.

(** * selected atoms *)
Definition sel_l (o : option (list text * list nat * list nat) * nat) : list text :=
  match o with
  | (None, _) => []
  | (Some (ats, ii, jj), k) => [chars "   Phase " ++ int_text (Z.of_nat k) ++ chars " :"; chars "     Atoms (i) :" ++ sel_text ats ii; chars "     Atoms (j) :" ++ sel_text ats jj]
  end.
Lemma sel_lines_ok sel ip o : nth_error sel ip = Some o -> sel_lines sel ip = Ok (concat (map ln (sel_l (o, S ip)))).
Proof.
  intros E. unfold sel_lines. rewrite E. destruct o as [[[ats ii] jj]|]; auto.
  unfold selected_atoms, rd. rewrite E. cbn [obind Ascii.eqb Bool.eqb]. cbn [sel_l map concat]. rewrite app_nil_r. replace (Z.of_nat (S ip)) with (Z.of_nat ip + 1)%Z by lia. reflexivity.
Qed.
Lemma oconcat_ok {A} (g : A -> outcome text) (h : A -> text) l : Forall (fun x => g x = Ok (h x)) l -> oconcat (map g l) = Ok (concat (map h l)).
Proof. induction 1 as [|x l E F IH]; auto. cbn [map oconcat concat]. rewrite E, IH. auto. Qed.
Lemma sel_all (sel : list (option (list text * list nat * list nat))) :
  oconcat (map (sel_lines sel) (seq 0 (length sel))) = Ok (concat (map ln (concat (map sel_l (combine sel (seq 1 (length sel))))))).
Proof.
  assert (forall n t, sel = n ++ t -> oconcat (map (sel_lines sel) (seq (length n) (length t))) = Ok (concat (map ln (concat (map sel_l (combine t (seq (S (length n)) (length t)))))))) as H.
  2:{ apply (H [] sel). auto. }
  intros n t. revert n. induction t as [|o t IH]; intros n E; auto. cbn [length seq map oconcat combine concat].
  rewrite (sel_lines_ok sel (length n) o). 2:{ rewrite E, nth_error_app2, Nat.sub_diag by lia. auto. }
  cbn [obind]. specialize (IH (n ++ [o])). rewrite app_length in IH. cbn [length] in IH. rewrite Nat.add_1_r in IH. rewrite IH. 2:{ rewrite <- app_assoc. auto. }
  cbn [omap obind]. rewrite concat_ln_app. auto.
Qed.
Lemma sel_l_says o k : match o with Some (ats, _, _) => Forall symbol ats | None => True end -> sel_says (o, k) (sel_l (o, k)).
Proof.
  destruct o as [[[ats ii] jj]|]; intros S; cbn [sel_says sel_l]; auto. exists (sel_text ats ii), (sel_text ats jj). split; auto.
  intros i a E. split; apply (sel_named ats); auto.
Qed.
Lemma upper_line s : symbol s -> one_line (upper s).
Proof. intros S. apply word_line, symbol_word; auto. Qed.
Lemma sel_text_line ats ign : Forall symbol ats -> one_line (sel_text ats ign).
Proof.
  intros S. rewrite sel_pieces. unfold one_line. rewrite in_concat. intros (t & I & J). apply in_map_iff in I as ([a ks] & <- & G). cbn [fst snd] in J.
  assert (symbol a) as Sa. { destruct (groups_in ats ign a ks G) as [Ia _]. rewrite Forall_forall in S. auto. }
  unfold piece in J. rewrite !in_app_iff in J. destruct J as [J|[J|J]].
  - repeat (destruct J as [J|J]; [discriminate|]). auto.
  - exact (upper_line a Sa J).
  - unfold numbers in J. apply in_concat in J as (w & Iw & Jw). apply in_map_iff in Iw as (k & <- & _). destruct Jw as [Jw|Jw]. discriminate. exact (word_line _ (proj1 (number_word k)) Jw).
Qed.

(** * fractions *)
Definition frac_l (k : nat) (x : vstd * vstd * vstd) : text :=
  let '(a, c, m) := x in chars " Phase " ++ int_text (Z.of_nat k + 1) ++ chars " :" ++ row [(f_frac, a); (f_frac, c); (f_last, m)].
Definition dv : vstd := (None, None).
Definition fracs (d : odata) : list text :=
  map (fun k => frac_l k (nth k (od_fatom d) dv, nth k (od_fcell d) dv, nth k (od_fmass d) dv)) (seq 0 (length (od_psel d))).
Lemma frac_all d : Forall (fun l => length l = length (od_psel d) /\ Forall vstd_ok l) [od_fatom d; od_fcell d; od_fmass d] ->
  oconcat (map (frac_line d) (seq 0 (length (od_psel d)))) = Ok (concat (map ln (fracs d))) /\
  Forall2 (frac_says d) (seq 0 (length (od_psel d))) (fracs d) /\ Forall one_line (fracs d) /\ ~ In [] (fracs d) /\ ~ In dashes (fracs d).
Proof.
  intros F. inversion F as [|? ? [L1 O1] F1]; subst. inversion F1 as [|? ? [L2 O2] F2]; subst. inversion F2 as [|? ? [L3 O3] _]; subst.
  assert (forall k, (k < length (od_psel d))%nat -> nth_error (od_fatom d) k = Some (nth k (od_fatom d) dv) /\ nth_error (od_fcell d) k = Some (nth k (od_fcell d) dv) /\ nth_error (od_fmass d) k = Some (nth k (od_fmass d) dv)) as N.
  { intros k K. repeat split; apply nth_error_nth'; congruence. }
  assert (forall (l : list vstd) k, length l = length (od_psel d) -> Forall vstd_ok l -> (k < length (od_psel d))%nat -> vstd_ok (nth k l dv)) as V.
  { intros l k L O K. rewrite Forall_forall in O. apply O, nth_In. congruence. }
  assert (forall k, (k < length (od_psel d))%nat -> let fs := [(f_frac, nth k (od_fatom d) dv); (f_frac, nth k (od_fcell d) dv); (f_last, nth k (od_fmass d) dv)] in
    one_line (row fs) /\ exists ws, words (row fs) = ws /\ Forall2 shown (values ws) (map snd fs)) as R.
  { intros k K fs. destruct (row_values fs) as (O & ws & W & S & _).
    - unfold fs. repeat (apply Forall_cons; [split; [reflexivity|cbn [snd]; auto]|]). apply Forall_nil.
    - repeat constructor.
    - split; eauto. }
  split; [|split; [|split; [|split]]].
  - rewrite (oconcat_ok (frac_line d) (fun k => ln (frac_l k (nth k (od_fatom d) dv, nth k (od_fcell d) dv, nth k (od_fmass d) dv)))).
    unfold fracs. rewrite map_map. auto.
    apply Forall_forall. intros k K. apply in_seq in K. destruct (N k) as (E1 & E2 & E3). lia. unfold frac_line, rd. rewrite E1, E2, E3. cbn [obind]. unfold frac_l. cbn [row]. rewrite app_nil_r. auto.
  - unfold fracs. assert (forall l, (forall k, In k l -> (k < length (od_psel d))%nat) -> Forall2 (frac_says d) l
      (map (fun k => frac_l k (nth k (od_fatom d) dv, nth k (od_fcell d) dv, nth k (od_fmass d) dv)) l)) as H.
    + induction l as [|k l IH]; intros B; constructor; auto with datatypes. destruct (N k) as (E1 & E2 & E3). auto with datatypes.
      destruct (R k) as (_ & ws & W & S). auto with datatypes. eexists _, _, _, _. split; [reflexivity|]. do 3 (split; [eassumption|]). rewrite W. exact S.
    + apply H. intros k K. apply in_seq in K. lia.
  - apply Forall_forall. intros l I. apply in_map_iff in I as (k & <- & K). apply in_seq in K. destruct (R k) as (O & _). lia. unfold frac_l. rewrite !one_app. repeat split; auto; try (apply one_chars; reflexivity).
    apply word_line, int_text_word.
  - intros I. apply in_map_iff in I as (k & E & _). discriminate E.
  - intros I. apply in_map_iff in I as (k & E & _). discriminate E.
Qed.

(** * the section *)
Definition data_title (d : odata) : text := chars " DATA SET : " ++ int_text (od_iset d) ++ chars " (" ++ od_name d ++ chars ")".
Definition range_l (d : odata) : list text :=
  [chars " Data range in r [A]    : " ++ pad_right 8 (num_text (od_rmin d)) ++ chars " -> " ++ pad_right 8 (num_text (od_rmax d)) ++ chars "      Step dr  : " ++ num_text (od_deltar d);
   chars " Calculated range       : " ++ pad_right 8 (num_text (od_rcmin d)) ++ chars " -> " ++ num_text (od_rcmax d);
   chars " Refinement r range     : " ++ pad_right 8 (num_text (od_rfmin d)) ++ chars " -> " ++ pad_right 8 (num_text (od_rfmax d)) ++
      chars "      Data pts : " ++ pad_right 5 (int_text (od_nfmin d)) ++ chars " -> " ++ int_text (od_nfmax d);
   chars " Reduced chi squared    : " ++ num_text (od_redchisq d);
   chars " Rw - value             : " ++ num_text (od_rw d);
   []; [];
   chars " Experimental settings  :";
   chars "   Radiation            : " ++ radiation (od_type d);
   chars "   Termination at Qmax  : " ++ unless_off (od_qmax d) (num_text (od_qmax d) ++ chars " A**-1");
   chars "   DQ dampening Qdamp   : " ++ unless_off (fst (od_qdamp d)) (put fmt_right (od_qdamp d) ++ chars " A**-1");
   chars "   DQ broadening Qbroad : " ++ unless_off (fst (od_qbroad d)) (put fmt_right (od_qbroad d) ++ chars " A**-1");
   chars "   Scale factor         : " ++ put fmt_right (od_dscale d);
   []].
Definition sels (d : odata) : list text := concat (map sel_l (combine (od_psel d) (seq 1 (length (od_psel d))))).
Definition data_body (d : odata) : list text :=
  range_l d ++ chars " Selected phases and atoms for this data set :" :: sels d ++
  [] :: chars " Relative phase content in terms of" :: chars "           atoms                   unit cells              mass" :: fracs d ++ [[]].
Lemma data_output_lines d : data_ok d -> data_output d = Ok (concat (map ln (rule :: data_title d :: rule :: data_body d))).
Proof.
  intros (_ & _ & _ & _ & _ & _ & _ & _ & _ & _ & _ & _ & _ & _ & _ & F). unfold data_output. rewrite sel_all. cbn [obind].
  destruct (frac_all d F) as (E & _). rewrite E. cbn [obind]. f_equal. fold (sels d). unfold data_body, heading. cbn [map concat]. rewrite !concat_ln_app. cbn [map concat]. rewrite !concat_ln_app. cbn [map concat].
  rewrite !concat_ln_app. unfold range_l. cbn [map concat]. rewrite <- !app_assoc. cbn [app]. fold (data_title d). rewrite ?app_nil_r. reflexivity.
Qed.
Lemma pad_words n w r : word w -> starts_blank r -> words (pad_right n w ++ r) = w :: words r.
Proof.
  intros W R. unfold pad_right. rewrite <- app_assoc. change (words ([] ++ w ++ blank_text (n - length w) ++ r) = w :: words r). rewrite words_word; auto.
  rewrite words_spaces; auto. apply blanks_repeat. constructor. destruct (n - length w)%nat; simpl; auto.
Qed.
Lemma words_one w : word w -> words w = [w].
Proof. intros W. rewrite <- (app_nil_r w) at 1. change (words ([] ++ w ++ []) = [w]). rewrite words_word; auto. constructor. exact I. Qed.
Lemma num_word x : opt_ok x -> word (num_text x).
Proof. intros V. apply (part_word x). apply num_text_part; auto. Qed.
Lemma sels_blank d : Forall blank3 (sels d).
Proof.
  unfold sels. apply Forall_concat. apply Forall_forall. intros l I. apply in_map_iff in I as ([[[[ats ii] jj]|] k] & <- & _); cbn [sel_l]; repeat constructor;
  unfold blank3; [exists (chars "Phase " ++ int_text (Z.of_nat k) ++ chars " :")|exists (chars "  Atoms (i) :" ++ sel_text ats ii)|exists (chars "  Atoms (j) :" ++ sel_text ats jj)]; reflexivity.
Qed.
Lemma data_body_says d : data_ok d -> data_says d (data_title d, data_body d).
Proof.
  intros (N & V1 & V2 & V3 & V4 & V5 & V6 & V7 & V8 & V9 & V10 & V11 & V12 & V13 & SY & F). unfold data_says. split; [reflexivity|].
  assert (blanks [" "%char]) as B1 by repeat constructor.
  assert (word (chars "A**-1")) as WA by (split; [repeat constructor|discriminate]).
  assert (forall r, words (chars " -> " ++ r) = chars "->" :: words r) as AR by reflexivity.
  assert (forall r, starts_blank (chars " -> " ++ r)) as AS by reflexivity.
  assert (forall r, words (chars "      Step dr  : " ++ r) = chars "Step" :: chars "dr" :: chars ":" :: words r) as SR by reflexivity.
  assert (forall r, words (chars "      Data pts : " ++ r) = chars "Data" :: chars "pts" :: chars ":" :: words r) as DR by reflexivity.
  assert (forall r, words (" "%char :: r) = words r) as BR by reflexivity.
  split.
  { eexists _, (num_text (od_rmin d)), (num_text (od_rmax d)), (num_text (od_deltar d)). split; [reflexivity|]. split; [|repeat split; apply num_text_part; auto].
    rewrite BR, pad_words; auto using num_word. rewrite AR, pad_words; auto using num_word; try reflexivity. rewrite SR, words_one; auto using num_word. }
  split.
  { eexists _, (num_text (od_rcmin d)), (num_text (od_rcmax d)). split; [reflexivity|]. split; [|repeat split; apply num_text_part; auto].
    rewrite BR, pad_words; auto using num_word. rewrite AR, words_one; auto using num_word. }
  split.
  { eexists _, (num_text (od_rfmin d)), (num_text (od_rfmax d)). split; [reflexivity|]. split; [|repeat split; apply num_text_part; auto].
    rewrite BR, pad_words; auto using num_word. rewrite AR, pad_words; auto using num_word; try reflexivity. rewrite DR, pad_words; auto using int_text_word. rewrite AR, words_one; auto using int_text_word. }
  split. { apply (says_num _ _ [" "%char]); auto. }
  split. { apply (says_num _ _ [" "%char]); auto. }
  split. { eexists. split; [reflexivity|]. rewrite BR. split; intros ->; reflexivity. }
  split. { eapply says_unless; [reflexivity|reflexivity|]. intros _ E. pose proof (num_text_part _ V10) as Q. pose proof (part_word _ _ Q) as [W _].
    exists (" "%char :: num_text (od_qmax d) ++ chars " A**-1"), [num_text (od_qmax d)]. split; auto. split.
    - rewrite BR. change (words ([] ++ num_text (od_qmax d) ++ chars " A**-1") = [num_text (od_qmax d); chars "A**-1"]). rewrite words_word; auto. constructor. reflexivity.
    - constructor; [|constructor]. split; auto. cbn [certain fst snd]. split; auto. intros (x & _ & M). unfold d_val at 2 in M. unfold d_zero in M. cbn [d_neg d_mag] in M. pose proof (Rabs_pos (d_val x)). lra. }
  split. { eapply says_unless; [reflexivity|reflexivity|]. intros _ E. apply (says_put_unit _ _ [" "%char] fmt_right _ (chars "A**-1")); auto. }
  split. { eapply says_unless; [reflexivity|reflexivity|]. intros _ E. apply (says_put_unit _ _ [" "%char] fmt_right _ (chars "A**-1")); auto. }
  split. { apply (says_put _ _ [" "%char] fmt_right); auto. }
  assert (forall x, Forall (fun l => l <> x) (range_l d) -> ~ In x (range_l d)) as NR. { intros x H I. rewrite Forall_forall in H. apply (H x); auto. }
  split.
  - exists (map sel_l (combine (od_psel d) (seq 1 (length (od_psel d))))). split.
    + unfold block, data_body. rewrite after_skip. rewrite upto_app. reflexivity.
      * apply (Forall_ne _ _ _ (sels_blank d)). intros (t & E). discriminate E.
      * apply NR. unfold range_l. repeat (apply Forall_cons; [intros E; discriminate E|]). apply Forall_nil.
    + clear -SY. revert SY. generalize 1%nat. induction (od_psel d) as [|o l IH]; intros k S; cbn [length seq combine map]; constructor. inversion S; subst. apply sel_l_says; auto. inversion S; subst. apply IH; auto.
  - destruct (frac_all d F) as (_ & S & _ & NE & _). unfold block.
    assert (data_body d = (range_l d ++ chars " Selected phases and atoms for this data set :" :: sels d ++ [[]; chars " Relative phase content in terms of"]) ++
      chars "           atoms                   unit cells              mass" :: fracs d ++ [[]]) as ->.
    { unfold data_body. rewrite <- !app_assoc. cbn [app]. rewrite <- !app_assoc. reflexivity. }
    rewrite after_skip. rewrite upto_app; auto. rewrite in_app_iff. intros [I|I].
    + revert I. apply NR. unfold range_l. repeat (apply Forall_cons; [intros E; discriminate E|]). apply Forall_nil.
    + destruct I as [I|I]. discriminate I. apply in_app_or in I as [I|I].
      * revert I. unfold sels. rewrite in_concat. intros (l & I & J). apply in_map_iff in I as ([[[[ats ii] jj]|] k] & <- & _); cbn [sel_l In] in J.
        repeat (destruct J as [J|J]; [discriminate J|]). auto. auto.
      * repeat (destruct I as [I|I]; [discriminate I|]). auto.
Qed.
Lemma pad_line n w : one_line w -> one_line (pad_right n w).
Proof. intros O. unfold pad_right. apply one_app. split; auto. apply blank_line, blank_all. Qed.
Lemma data_title_line d : data_ok d -> one_line (data_title d).
Proof. intros (N & _). unfold data_title. rewrite !one_app. repeat split; auto; try (apply one_chars; reflexivity). apply word_line, int_text_word. Qed.
Lemma data_body_lines d : data_ok d -> Forall one_line (data_body d).
Proof.
  intros (N & V1 & V2 & V3 & V4 & V5 & V6 & V7 & V8 & V9 & V10 & V11 & V12 & V13 & SY & F). unfold data_body. apply Forall_app; split.
  - pose proof (fun z => word_line _ (int_text_word z)) as IL. unfold range_l. repeat (apply Forall_cons; [|]); try apply Forall_nil; rewrite ?one_app;
    repeat match goal with |- _ /\ _ => split end; try (apply one_chars; reflexivity); try (intros []; fail); auto using pad_line, num_line, put_line.
    + unfold radiation. destruct Ascii.eqb; apply one_chars; reflexivity.
    + apply unless_line. rewrite one_app. split; auto using num_line. apply one_chars; reflexivity.
    + apply unless_line. rewrite one_app. split; auto using put_line. apply one_chars; reflexivity.
    + apply unless_line. rewrite one_app. split; auto using put_line. apply one_chars; reflexivity.
  - apply Forall_cons. apply one_chars; reflexivity. apply Forall_app; split.
    + unfold sels. apply Forall_concat, Forall_forall. intros l I. apply in_map_iff in I as ([o k] & <- & I). apply in_combine_l in I. rewrite Forall_forall in SY. specialize (SY _ I).
      destruct o as [[[ats ii] jj]|]; cbn [sel_l]; [|constructor]. repeat (apply Forall_cons; [|]); try apply Forall_nil; rewrite !one_app; repeat match goal with |- _ /\ _ => split end; try (apply one_chars; reflexivity).
      apply word_line, int_text_word. apply sel_text_line; auto. apply sel_text_line; auto.
    + destruct (frac_all d F) as (_ & _ & O & _). do 3 (apply Forall_cons; [try (apply one_chars; reflexivity); intros []|]). apply Forall_app; split; auto. apply Forall_cons. intros []. constructor.
Qed.
Lemma data_no_rule d : data_ok d -> ~ In dashes (data_body d).
Proof.
  intros (_ & _ & _ & _ & _ & _ & _ & _ & _ & _ & _ & _ & _ & _ & _ & F). destruct (frac_all d F) as (_ & _ & _ & _ & NR). unfold data_body. rewrite in_app_iff. intros [I|I].
  - cbn [range_l In] in I. repeat (destruct I as [I|I]; [discriminate I|]). auto.
  - destruct I as [I|I]. discriminate I. apply in_app_or in I as [I|I].
    + revert I. apply (Forall_ne _ _ _ (sels_blank d)). intros (t & E). discriminate E.
    + do 3 (destruct I as [I|I]; [discriminate I|]). apply in_app_or in I as [I|I]; auto. destruct I as [I|[]]. discriminate I.
Qed.
