(** The theorems on the characters of the parameter part of the results text and of
    the parameters in the log. *)
From Coq Require Import Ascii String List Arith ZArith Reals Bool Lia Lra Sorted.
From Verif Require Import Base ParamModel ParamSpec OrderModel OrderProof MatrixModel ParserModel DataModel DataSpec DataProof FmtModel FmtSpec FmtProof FmtGen FmtFinal ScatModel SaveModel ReportModel ReportSpec ReportProof ReportFinal OutModel OutSpec OutProof OutPhase OutData OutFinal ReportSel FitTextModel FitTextSpec FitTextProof.
Import ListNotations.
Local Open Scope R_scope.

(** * rows of parameters *)
Fixpoint par_cells (k : nat) (xs : list (Z * xdbl * xdbl)) : list text :=
  match xs with [] => [] | x :: r => par_cell (ends_line 3 k (length r)) x :: par_cells (S k) r end.
Lemma par_cells_len k xs : length (par_cells k xs) = length xs.
Proof. revert k. induction xs as [|x xs IH]; intros k; cbn; auto. Qed.
Lemma pars_text_eq f n o xs : par_items f o = Ok xs -> forall k, (k + length xs = n)%nat -> pars_text f n k o = Ok (render (marked 3 k (par_cells k xs))).
Proof.
  revert xs. induction o as [|i o IH]; intros xs E k K; cbn [par_items] in E. injection E as <-. reflexivity.
  cbn [pars_text]. destruct (par_item f i) as [x|e| |] eqn:X; try discriminate. cbn [obind] in *. destruct (par_items f o) as [ys|e| |] eqn:Y; try discriminate. injection E as <-.
  cbn [length] in K. rewrite (IH ys eq_refl (S k)) by lia. cbn [omap obind]. cbn [par_cells marked]. f_equal. rewrite par_cells_len. unfold render at 2. cbn [map concat fst snd]. fold (render (marked 3 (S k) (par_cells (S k) ys))). f_equal.
  destruct x as [[a v] d]. unfold par_text, par_cell.
  assert (((k + 1) mod 3 =? 0) || (k + 1 =? n) = ends_line 3 k (length ys))%nat%bool as ->.
  { unfold ends_line. rewrite Nat.add_1_r. f_equal. destruct (Nat.eqb_spec (S k) n), (Nat.eqb_spec (length ys) 0); auto; lia. }
  destruct (ends_line 3 k (length ys)). unfold ln. rewrite app_nil_r, <- !app_assoc. auto. auto.
Qed.
Lemma par_cells_ok k xs : Forall par_ok xs -> exists es, Forall2 par_shown es xs /\ Forall2 cell (par_cells k xs) es /\
  Forall (fun x => snd x = false -> opened (fst x)) (marked 3 k (par_cells k xs)).
Proof.
  intros F. revert k. induction F as [|x xs O F IH]; intros k. exists []. repeat split; constructor.
  destruct (IH (S k)) as (es & A & B & C). destruct (par_cell_ok (ends_line 3 k (length xs)) x O) as (e & S & D & P). exists (e :: es). cbn [par_cells marked]. rewrite par_cells_len.
  split; [|split]; constructor; auto.
Qed.

(** * correlations *)
Lemma corr_line_ok a b c : x_ok c -> exists l, corr_text (a, b, c) = ln l /\ one_line l /\ corr_says l (a, b, c) /\ l <> dashes /\ strip (chars "   Corr(p[") l <> None.
Proof.
  intros C. pose proof (x_general_ok 6 c ltac:(lia) C) as P. destruct (x_part_word _ _ _ P) as [W _]. eexists. split; [reflexivity|]. split; [|split; [|split]].
  - rewrite !one_app. repeat split; try (apply one_chars; reflexivity); try (apply word_line, int_text_word). apply word_line; auto.
  - exists (x_general 6 c). split; auto.
    change (words (chars "   " ++ (chars "Corr(p[" ++ (int_text a ++ chars "], p[" ++ int_text b ++ chars "]) = " ++ x_general 6 c))) = [chars "Corr(p[" ++ int_text a ++ chars "],"; chars "p[" ++ int_text b ++ chars "])"; chars "="; x_general 6 c]).
    replace (chars "Corr(p[" ++ (int_text a ++ chars "], p[" ++ int_text b ++ chars "]) = " ++ x_general 6 c)) with
      ((chars "Corr(p[" ++ int_text a ++ chars "],") ++ (chars " " ++ (chars "p[" ++ int_text b ++ chars "])") ++ (chars " " ++ chars "=" ++ (chars " " ++ x_general 6 c ++ [])))) by (rewrite app_nil_r, <- !app_assoc; auto).
    destruct (int_text_word a) as [Fa Na]. destruct (int_text_word b) as [Fb Nb].
    rewrite words_word; [|repeat constructor| |reflexivity]. f_equal. rewrite words_word; [|repeat constructor| |reflexivity]. f_equal. rewrite words_word; [|repeat constructor| |reflexivity]. f_equal.
    rewrite words_word; [reflexivity|repeat constructor|auto|reflexivity].
    + split; [repeat constructor|discriminate].
    + split; [|discriminate]. apply Forall_app; split. repeat constructor. apply Forall_app; split; auto. repeat constructor.
    + split; [|discriminate]. apply Forall_app; split. repeat constructor. apply Forall_app; split; auto. repeat constructor.
  - discriminate.
  - rewrite strip_app. discriminate.
Qed.
Lemma corr_lines cs : Forall (fun x => x_ok (snd x)) cs -> exists rows, concat (map corr_text cs) = concat (map ln rows) /\ Forall one_line rows /\ Forall2 corr_says rows cs /\ ~ In dashes rows.
Proof.
  induction 1 as [|[[a b] c] cs C F (rows & E & O & S & D)]. exists []. repeat split; auto.
  destruct (corr_line_ok a b c C) as (l & EL & OL & SL & DL & _). exists (l :: rows). cbn [map concat]. rewrite EL, E. repeat split; auto. intros [Q|Q]; auto.
Qed.

(** * the text *)
Definition count_lines (f : fitdata xdbl) : list text :=
  [chars " Number of constraints        : " ++ int_text (Z.of_nat (fd_nvar f));
   chars " Number of refined parameters : " ++ int_text (Z.of_nat (npar f));
   chars " Number of fixed parameters   : " ++ int_text (Z.of_nat (length (pval (fd_tab f))) - Z.of_nat (npar f))].
Definition number_lines (f : fitdata xdbl) (redchisq rw : xdbl) : list text :=
  [chars " Number of iterations : " ++ int_text (fd_iter f);
   chars " Reduced chi squared  : " ++ x_general 6 redchisq;
   chars " Rw - value           : " ++ x_general 6 rw; []].
Lemma count_line f : Forall one_line (count_lines f).
Proof. repeat constructor; rewrite !one_app; (split; [apply one_chars; reflexivity|apply word_line, int_text_word]). Qed.
Lemma nil_line : one_line []. Proof. intros []. Qed.
Lemma number_line f redchisq rw : x_ok redchisq -> x_ok rw -> Forall one_line (number_lines f redchisq rw).
Proof.
  intros A B. repeat constructor; try (apply one_app; split; [apply one_chars; reflexivity|]). apply word_line, int_text_word.
  apply word_line, (x_part_word 6 redchisq), x_general_ok; auto; lia. apply word_line, (x_part_word 6 rw), x_general_ok; auto; lia. apply nil_line.
Qed.
Lemma one_word w : word w -> words (chars " " ++ w) = [w].
Proof. intros W. rewrite <- (app_nil_r w) at 1. rewrite words_word; auto. repeat constructor. reflexivity. Qed.
Lemma lab_skip x l r : strip (chars x) l = None -> labelled (chars x) (l :: r) = labelled (chars x) r.
Proof. intros H. cbn [labelled]. rewrite H. auto. Qed.
Lemma lab_here x t r : labelled (chars x) ((chars x ++ t) :: r) = Some t.
Proof. cbn [labelled]. rewrite strip_app. auto. Qed.
Lemma counts_ok f r : (npar f <= length (pval (fd_tab f)))%nat -> counts_say (count_lines f ++ r) (fd_nvar f) (npar f) (length (pval (fd_tab f)) - npar f).
Proof.
  intros LE. split; [|split]; (eexists; split; [|apply one_word, int_text_word]).
  - unfold count_lines. cbn [app]. apply (lab_here " Number of constraints        :" (chars " " ++ _)).
  - unfold count_lines. cbn [app]. rewrite lab_skip by reflexivity. apply (lab_here " Number of refined parameters :" (chars " " ++ _)).
  - unfold count_lines. cbn [app]. rewrite !lab_skip by reflexivity. rewrite Nat2Z.inj_sub by auto. apply (lab_here " Number of fixed parameters   :" (chars " " ++ _)).
Qed.
Lemma numbers_ok f redchisq rw r : x_ok redchisq -> x_ok rw -> numbers_say (number_lines f redchisq rw ++ r) (fd_iter f) redchisq rw.
Proof.
  intros A B. pose proof (x_general_ok 6 redchisq ltac:(lia) A) as PA. pose proof (x_general_ok 6 rw ltac:(lia) B) as PB. split; [|split].
  - eexists; split; [|apply one_word, int_text_word]. unfold number_lines. cbn [app]. apply (lab_here " Number of iterations :" (chars " " ++ _)).
  - exists (x_general 6 redchisq). split; auto. eexists; split; [|apply one_word, (x_part_word 6 redchisq); auto]. unfold number_lines. cbn [app]. rewrite lab_skip by reflexivity. apply (lab_here " Reduced chi squared  :" (chars " " ++ _)).
  - exists (x_general 6 rw). split; auto. eexists; split; [|apply one_word, (x_part_word 6 rw); auto]. unfold number_lines. cbn [app]. rewrite !lab_skip by reflexivity. apply (lab_here " Rw - value           :" (chars " " ++ _)).
Qed.
Definition ref_title : text := chars " Refinement parameters :".
Definition info_title : text := chars " REFINEMENT INFORMATION:".
Definition corr_title : text := chars " Correlations greater than 0.8 :".
Lemma parts_none x a : ~ In x a -> parts x a = [a].
Proof.
  induction a as [|l a IH]; intros N; cbn [parts]; auto. rewrite (proj2 (tneq l x)). rewrite IH; auto. intros I; apply N; right; auto. intros ->. apply N. left; auto.
Qed.
Definition no_lines (ls : list text) : Prop := ~ In dashes ls.
Lemma counts_dashes f : ~ In dashes (count_lines f).
Proof. unfold count_lines. intros I. repeat (destruct I as [I|I]; [discriminate I|]). exact I. Qed.
Lemma numbers_dashes f redchisq rw : ~ In dashes (number_lines f redchisq rw).
Proof. unfold number_lines. intros I. repeat (destruct I as [I|I]; [discriminate I|]). exact I. Qed.

Lemma text_parts f redchisq rw ps cs : npar f <> 0%nat -> (npar f <= length (pval (fd_tab f)))%nat -> length ps = length (pval (fd_tab f)) ->
  par_items f (order_by_id (fd_tab f)) = Ok ps -> corr_rows f (order_by_id (fd_tab f)) = Ok cs ->
  Forall par_ok ps -> Forall (fun x => x_ok (snd x)) cs -> x_ok redchisq -> x_ok rw ->
  exists ls body tail, fit_text f redchisq rw = Ok (concat (map ln ls)) /\ Forall one_line ls /\ parts dashes ls = [body; [info_title]; tail] /\
    counts_say body (fd_nvar f) (npar f) (length (pval (fd_tab f)) - npar f) /\
    rows_of 3 (after ref_title body) /\ Forall2 par_shown (all_entries (after ref_title body)) ps /\
    numbers_say tail (fd_iter f) redchisq rw /\ corrs_say (after corr_title tail) cs.
Proof.
  intros N0 LE LP EP EC FP FC RC RW.
  destruct (par_cells_ok 0 ps FP) as (es & SH & CE & OP). destruct (rows_ok 3 _ _ ltac:(lia) CE OP) as (rows & ER & OR & RO & AE).
  destruct (corr_lines cs FC) as (crows & EQ & OC & SC & DC).
  set (cr := match cs with [] => [chars "   *** none ***"] | _ => crows end).
  assert (ECR : corrs_text f (order_by_id (fd_tab f)) = Ok (concat (map ln cr))).
  { unfold corrs_text. rewrite EC. cbn [omap obind]. unfold cr. destruct cs as [|c cs]. reflexivity. rewrite EQ, app_nil_r. auto. }
  assert (OCR : Forall one_line cr). { unfold cr. destruct cs; auto. repeat constructor. apply one_chars; reflexivity. }
  assert (DCR : ~ In dashes cr). { unfold cr. destruct cs; auto. intros [I|[]]. discriminate I. }
  assert (DR : ~ In dashes rows) by (eapply rows_not; eauto).
  assert (TR : ~ In ref_title (count_lines f ++ [[]])). { unfold count_lines. intros I. repeat (destruct I as [I|I]; [discriminate I|]). exact I. }
  set (body := (count_lines f ++ [[]]) ++ ref_title :: rows). set (tail := number_lines f redchisq rw ++ corr_title :: [] :: cr).
  assert (DB : ~ In dashes body). { unfold body. rewrite !in_app_iff. intros [[I|[I|[]]]|[I|I]]; try discriminate; auto. exact (counts_dashes f I). }
  assert (DT : ~ In dashes tail). { unfold tail. rewrite in_app_iff. intros [I|[I|[I|I]]]; try discriminate; auto. exact (numbers_dashes f redchisq rw I). }
  exists (body ++ dashes :: [info_title] ++ dashes :: tail), body, tail. split; [|split; [|split]].
  - unfold fit_text. rewrite (proj2 (Nat.eqb_neq _ _) N0). rewrite (pars_text_eq f _ _ ps EP 0) by auto. cbn [obind]. rewrite ECR. cbn [obind]. f_equal. rewrite ER.
    rewrite !concat_ln_app. cbn [map concat app]. unfold body, tail. rewrite !concat_ln_app. unfold count_lines, number_lines, heading. cbn [map concat app]. rewrite <- !app_assoc. cbn [app]. rewrite ?app_nil_r. rewrite <- rule_dashes. reflexivity.
  - apply Forall_app; split.
    + unfold body. apply Forall_app; split. apply Forall_app; split. apply count_line. apply Forall_cons; [apply nil_line|apply Forall_nil]. apply Forall_cons; [apply one_chars; reflexivity|auto].
    + apply Forall_cons; [apply rule_line|]. cbn [app]. apply Forall_cons; [apply one_chars; reflexivity|]. apply Forall_cons; [apply rule_line|]. unfold tail. apply Forall_app; split. apply number_line; auto.
      apply Forall_cons; [apply one_chars; reflexivity|]. apply Forall_cons; [apply nil_line|auto].
  - rewrite parts_app by auto. f_equal. rewrite parts_app. f_equal. apply parts_none; auto. intros [I|[]]; discriminate.
  - split; [|split; [|split; [|split]]].
    + unfold body. rewrite <- !app_assoc. apply counts_ok; auto.
    + unfold body. rewrite after_skip; auto.
    + unfold body. rewrite after_skip by auto. rewrite AE. auto.
    + apply numbers_ok; auto.
    + unfold tail. rewrite after_skip. 2:{ unfold number_lines. intros I. repeat (destruct I as [I|I]; [discriminate I|]). exact I. }
      exists cr. split; auto. unfold cr. destruct cs as [|c cs]; split; [congruence|intros _; reflexivity|intros _; exact SC|congruence].
Qed.

(** * results *)
Lemma x_div_ok a b : x_ok a -> x_ok b -> x_ok (x_div a b).
Proof.
  destruct a as [x|s|], b as [y|u|]; cbn; auto. 2: intros _ _; apply Rle_refl.
  intros X Y. unfold dbl_ok in X, Y. destruct Req_EM_T. destruct Req_EM_T; cbn; auto. cbn. unfold dbl_ok. cbn.
  apply Rmult_le_pos; auto. left. apply Rinv_0_lt_compat. lra.
Qed.
Lemma nth_ok {A} (P : A -> Prop) l i x : Forall P l -> nth_error l i = Some x -> P x.
Proof. intros F E. rewrite Forall_forall in F. apply F. eapply nth_error_In; eauto. Qed.
Lemma filter_le {A} (p : A -> bool) l : (length (filter p l) <= length l)%nat.
Proof. induction l as [|x l IH]; cbn; auto. destruct (p x); cbn; lia. Qed.
Section Results.
Variable h : list (pop xdbl).
Variable f : fitdata xdbl.
Variables redchisq rw : xdbl.
Hypothesis HT : fd_tab f = prun ptab_init h.
Hypothesis HS : sized f.
Hypothesis OK : all_ok h f redchisq rw.
Lemma npar_le : (npar f <= length (pval (fd_tab f)))%nat.
Proof. destruct (wf_t h f HT) as (LV & LF & _). unfold npar. rewrite LV, <- LF. apply filter_le. Qed.
Lemma text_body : npar f <> 0%nat -> exists ps cs ls body tail, par_items f (order_by_id (fd_tab f)) = Ok ps /\ corr_rows f (order_by_id (fd_tab f)) = Ok cs /\
    fit_text f redchisq rw = Ok (concat (map ln ls)) /\ Forall one_line ls /\ parts dashes ls = [body; [info_title]; tail] /\
    counts_say body (fd_nvar f) (npar f) (length (pval (fd_tab f)) - npar f) /\
    rows_of 3 (after ref_title body) /\ Forall2 par_shown (all_entries (after ref_title body)) ps /\
    numbers_say tail (fd_iter f) redchisq rw /\ corrs_say (after corr_title tail) cs.
Proof.
  intros N. destruct OK as (OV & OD & OC & OR & OW). destruct (body_ok h f HT HS) as (ps & cs & EP & EC & F2 & IN & _).
  destruct (text_parts f redchisq rw ps cs N npar_le) as (ls & body & tail & T); auto.
  - rewrite <- (F2_len _ _ _ F2). destruct (wf_t h f HT) as (LV & _). rewrite LV. rewrite <- (Permutation.Permutation_length (order_permutation (fd_tab f))). apply seq_length.
  - apply Forall_forall. intros [[a v] d] I. destruct (In_nth_error _ _ I) as [k K].
    assert (exists i, par_at f i (a, v, d)) as (i & A & V & D). { clear -F2 K. revert k K. induction F2; intros [|k] K; try discriminate; cbn in K. injection K as ->. eauto. eauto. }
    split; cbn [fst snd]. apply (OV a). apply (pos_val h f HT i a v A); auto. destruct D as [[_ D]|[_ ->]]. eapply nth_ok; [exact OD|exact D]. cbn. apply Rle_refl.
  - apply Forall_forall. intros [[a b] c] I. cbn [snd]. apply IN in I as (_ & i & j & _ & _ & _ & _ & m & di & dj & M & DI & DJ & -> & _).
    apply x_div_ok; [apply x_div_ok|]. unfold entry in M. eapply nth_ok; [exact OC|exact M]. eapply nth_ok; [exact OD|exact DI]. eapply nth_ok; [exact OD|exact DJ].
  - exists ps, cs, ls, body, tail. tauto.
Qed.
Lemma text_none : npar f = 0%nat -> fit_text f redchisq rw = Ok (concat (map ln (count_lines f))).
Proof.
  intros N. unfold fit_text. rewrite (proj2 (Nat.eqb_eq _ _) N). unfold count_lines. cbn [map concat]. rewrite app_nil_r. auto.
Qed.
End Results.
Lemma lines_concat ls : Forall one_line ls -> lines (concat (map ln ls)) = ls.
Proof. intros F. etransitivity; [|exact (eq_trans (lines_many ls [] F) (app_nil_r ls))]. rewrite app_nil_r. auto. Qed.

Lemma text_counts h f redchisq rw l m : fd_tab f = prun ptab_init h -> sized f -> all_ok h f redchisq rw ->
  NoDup l -> NoDup m -> (forall a, In a l <-> flag_of a (rev h) = Some true) -> (forall a, In a m <-> flag_of a (rev h) = Some false) ->
  exists t body rest, fit_text f redchisq rw = Ok t /\ parts dashes (lines t) = body :: rest /\
    counts_say body (fd_nvar f) (length l) (length m) /\ (rest = [] <-> l = []).
Proof.
  intros HT HS OK N M L M'. pose proof (count_free h f HT l N L) as CL. pose proof (count_fixed h f HT m M M') as CM. pose proof (npar_le h f HT) as LE.
  destruct (Nat.eq_dec (npar f) 0) as [E|E].
  - eexists _, (count_lines f), []. split; [apply text_none; auto|]. rewrite lines_concat by apply count_line. split. apply parts_none, counts_dashes. split.
    rewrite <- CL, <- CM. rewrite <- (app_nil_r (count_lines f)). apply counts_ok; auto. split; auto. intros _. destruct l; auto. rewrite E in CL. discriminate.
  - destruct (text_body h f redchisq rw HT HS OK E) as (ps & cs & ls & body & tail & _ & _ & T & O & P & C & _).
    exists (concat (map ln ls)), body, [[info_title]; tail]. split; auto. rewrite lines_concat by auto. split; auto. split. rewrite <- CL, <- CM. auto.
    split; [discriminate|]. intros ->. cbn in CL. lia.
Qed.
Lemma text_pars h f redchisq rw a0 : fd_tab f = prun ptab_init h -> sized f -> all_ok h f redchisq rw -> fd_iter f <> 0%Z -> flag_of a0 (rev h) = Some true ->
  exists t body tail ps, fit_text f redchisq rw = Ok t /\ parts dashes (lines t) = [body; [chars " REFINEMENT INFORMATION:"]; tail] /\
    rows_of 3 (after (chars " Refinement parameters :") body) /\ Forall2 par_shown (all_entries (after (chars " Refinement parameters :") body)) ps /\
    numbers_say tail (fd_iter f) redchisq rw /\
    StronglySorted Z.lt (map (fun x => fst (fst x)) ps) /\
    forall a v d, In (a, v, d) ps <->
      last_set a (rev h) = Some v /\
      exists i, nth_error (pid (fd_tab f)) i = Some a /\
        (flag_of a (rev h) = Some true /\ nth_error (fd_dp f) i = Some d \/ flag_of a (rev h) = Some false /\ d = Fin d_zero).
Proof.
  intros HT HS OK IT F0. assert (E : npar f <> 0%nat). { intros E. exact (proj1 (none_free h f HT) E _ F0). }
  destruct (text_body h f redchisq rw HT HS OK E) as (ps & cs & ls & body & tail & EP & EC & T & O & P & _ & RO & SH & NU & _).
  destruct (report_pars h f a0 HT HS IT F0) as (r & ps' & it & cs' & ER & B & _ & SO & IN).
  destruct (body_of h f a0 HT HS IT F0) as (r' & ps'' & cs'' & ER' & B' & P' & _). assert (r' = r) by congruence. subst r'. assert (ps' = ps) by congruence. subst ps'.
  exists (concat (map ln ls)), body, tail, ps. split; auto. rewrite lines_concat by auto. split; auto.
Qed.
Lemma text_corr h f redchisq rw a0 (cov : nat -> nat -> R) (sd : nat -> R) :
  fd_tab f = prun ptab_init h -> sized f -> all_ok h f redchisq rw -> fd_iter f <> 0%Z -> flag_of a0 (rev h) = Some true ->
  let n := length (pid (fd_tab f)) in
  (forall i j, (i < n)%nat -> (j < n)%nat -> entry (fd_cov f) i j = Some (real (cov i j))) ->
  (forall i, (i < n)%nat -> nth_error (fd_dp f) i = Some (real (sd i))) ->
  (forall i, nth_error (pfree (fd_tab f)) i = Some true -> 0 < sd i) ->
  exists t body tail cs, fit_text f redchisq rw = Ok t /\ parts dashes (lines t) = [body; [chars " REFINEMENT INFORMATION:"]; tail] /\
    corrs_say (after (chars " Correlations greater than 0.8 :") tail) cs /\ NoDup (map fst cs) /\
    forall a b c, In (a, b, c) cs <->
      (a < b)%Z /\ flag_of a (rev h) = Some true /\ flag_of b (rev h) = Some true /\
      exists i j, nth_error (pid (fd_tab f)) i = Some a /\ nth_error (pid (fd_tab f)) j = Some b /\
        Rabs (cov i j) > 8 / 10 * (sd i * sd j) /\ c = real (cov i j / (sd i * sd j)).
Proof.
  intros HT HS OK IT F0 n C1 C2 C3. assert (E : npar f <> 0%nat). { intros E. exact (proj1 (none_free h f HT) E _ F0). }
  destruct (text_body h f redchisq rw HT HS OK E) as (ps & cs & ls & body & tail & EP & EC & T & O & P & _ & RO & SH & NU & CS).
  destruct (report_corr h f a0 cov sd HT HS IT F0 C1 C2 C3) as (r & ps' & it & cs' & ER & B & ND & IN).
  destruct (body_of h f a0 HT HS IT F0) as (r' & ps'' & cs'' & ER' & B' & _ & C'). assert (r' = r) by congruence. subst r'. assert (cs' = cs) by congruence. subst cs'.
  exists (concat (map ln ls)), body, tail, cs. split; auto. rewrite lines_concat by auto. split; auto.
Qed.
Lemma text_whole h f redchisq rw version ps ds : fd_tab f = prun ptab_init h -> sized f -> all_ok h f redchisq rw -> fd_iter f <> 0%Z ->
  one_line version -> Forall phase_ok ps -> Forall data_ok ds ->
  exists t ft head pss dss, whole_text f version ps ds redchisq rw = Ok t /\ fit_text f redchisq rw = Ok ft /\
    parts dashes (lines t) = head :: concat (map section_parts (pss ++ dss)) ++ [chars " PARAMETER INFORMATION :"] :: parts dashes (lines ft ++ [" "%char :: repeat "="%char 78]) /\
    Forall2 phase_says ps pss /\ Forall2 data_says ds dss.
Proof.
  intros HT HS OK IT V P D.
  assert (exists ls, fit_text f redchisq rw = Ok (concat (map ln ls)) /\ Forall one_line ls) as (ls & E & O).
  { destruct (Nat.eq_dec (npar f) 0) as [E|E]. exists (count_lines f). split. apply text_none; auto. apply count_line.
    destruct (text_body h f redchisq rw HT HS OK E) as (? & ? & ls & ? & ? & _ & _ & T & O & _). eauto. }
  destruct (result_text_rest version (fd_iter f) ps ds [] IT V P D) as (t0 & E0 & _).
  destruct (result_text_rest version (fd_iter f) ps ds (concat (map ln ls)) IT V P D) as (t & ET & head & pss & dss & rest & EP & ER & FP & FD).
  exists t, (concat (map ln ls)), head, pss, dss. split. unfold whole_text. rewrite E0, E. exact ET. split; auto. split; auto. rewrite EP, ER.
  rewrite lines_many by auto. rewrite lines_concat by auto. reflexivity.
Qed.

(** * log *)
Fixpoint log_cells (k : nat) (xs : list (Z * xdbl)) : list text :=
  match xs with [] => [] | x :: r => log_cell (S k mod 4 =? 0)%nat x :: log_cells (S k) r end.
Lemma log_cells_len k xs : length (log_cells k xs) = length xs.
Proof. revert k. induction xs as [|x xs IH]; intros k; cbn; auto. Qed.
Fixpoint log_text (k : nat) (xs : list (Z * xdbl)) : text :=
  match xs with [] => [] | x :: r => log_cell (S k mod 4 =? 0)%nat x ++ (if (S k mod 4 =? 0)%nat then [nl] else []) ++ log_text (S k) r end.
Lemma log_render k xs : xs <> [] -> render (marked 4 k (log_cells k xs)) = log_text k xs ++ (if ((k + length xs) mod 4 =? 0)%nat then [] else [nl]).
Proof.
  revert k. induction xs as [|x xs IH]; intros k N. congruence. cbn [log_cells marked log_text length]. rewrite log_cells_len. unfold render. cbn [map concat fst snd]. fold (render (marked 4 (S k) (log_cells (S k) xs))).
  unfold ends_line. replace (k + S (length xs))%nat with (S k + length xs)%nat by lia. destruct xs as [|y xs].
  - cbn [length Nat.eqb]. rewrite orb_true_r. cbn [log_cells marked render map concat log_text]. rewrite !app_nil_r. replace (S k + 0)%nat with (S k) by lia. unfold ln. destruct (S k mod 4 =? 0)%nat; rewrite ?app_nil_r; auto.
  - cbn [length Nat.eqb]. rewrite orb_false_r. change (length (y :: xs)) with (S (length xs)) in IH. rewrite IH by discriminate. unfold ln. destruct (S k mod 4 =? 0)%nat; rewrite <- !app_assoc; auto.
Qed.
Lemma log_cells_ok k xs : Forall (fun x => x_ok (snd x)) xs -> exists es, Forall2 log_shown es xs /\ Forall2 cell (log_cells k xs) es /\
  Forall (fun x => snd x = false -> opened (fst x)) (marked 4 k (log_cells k xs)).
Proof.
  intros F. revert k. induction F as [|x xs O F IH]; intros k. exists []. repeat split; constructor.
  destruct (IH (S k)) as (es & A & B & C). destruct (log_cell_ok (S k mod 4 =? 0)%nat x O) as (e & S & D & P). exists (e :: es). cbn [log_cells marked].
  split; [|split]; constructor; auto. cbn [fst snd]. unfold ends_line. intros E. apply orb_false_iff in E as [E _]. auto.
Qed.
Section Log.
Variable h : list (pop xdbl).
Variable f : fitdata xdbl.
Hypothesis HT : fd_tab f = prun ptab_init h.
Let t := fd_tab f.
Let n := length (pid t).
Definition is_free (i : nat) : bool := match nth_error (pfree t) i with Some b => b | None => false end.
Definition log_at (i : nat) (x : Z * xdbl) : Prop := nth_error (pid t) i = Some (fst x) /\ nth_error (pval t) i = Some (snd x).
Lemma log_items_at o : Forall (fun i => (i < n)%nat) o ->
  exists xs, (forall j, log_items f j o = Ok (log_text j xs, (j + length xs)%nat)) /\ Forall2 log_at (filter is_free o) xs.
Proof.
  destruct (wf_t h f HT) as (LV & LF & _). fold t in LV, LF. fold n in LV, LF. induction 1 as [|i o I F (xs & E & F2)]. exists []. split. intros j. cbn. rewrite Nat.add_0_r. auto. constructor.
  destruct (nth_ex (pid t) i I) as [a A]. destruct (nth_ex (pval t) i) as [v V]. lia. destruct (nth_ex (pfree t) i) as [b B]. lia.
  assert (FR : is_free i = b) by (unfold is_free; rewrite B; auto). cbn [filter]. rewrite FR.
  destruct b.
  - exists ((a, v) :: xs). split. 2: constructor; auto; split; auto. intros j. cbn [log_items]. fold t. rewrite (rd_some _ _ _ B). cbn [obind]. rewrite (rd_some _ _ _ A), (rd_some _ _ _ V). cbn [obind]. rewrite E. cbn [omap obind log_text length].
    f_equal. f_equal; [|lia]. unfold log_cell. rewrite <- !app_assoc. destruct (S j mod 4 =? 0)%nat; auto.
  - exists xs. split; auto. intros j. cbn [log_items]. fold t. rewrite (rd_some _ _ _ B). cbn [obind]. apply E.
Qed.
Lemma log_rows : (forall a v, last_set a (rev h) = Some v -> x_ok v) ->
  exists rows xs, fit_out f = Ok (concat (map ln ([[]; ref_title] ++ rows ++ [[]]))) /\ Forall one_line rows /\
    rows_of 4 rows /\ Forall2 log_shown (all_entries rows) xs /\
    StronglySorted Z.lt (map fst xs) /\
    forall a v, In (a, v) xs <-> flag_of a (rev h) = Some true /\ last_set a (rev h) = Some v.
Proof.
  intros OV. destruct (order_ok f) as [FO NO]. fold t in FO, NO. destruct (log_items_at _ FO) as (xs & E & F2).
  assert (AT : forall x, In x xs -> exists i, is_free i = true /\ log_at i x).
  { assert (Q : Forall (fun i => is_free i = true) (filter is_free (order_by_id t))). { apply Forall_forall. intros i I. apply filter_In in I. tauto. }
    revert Q F2. generalize (filter is_free (order_by_id t)). clear. intros l Q F2. induction F2 as [|i0 x0 l0 m0 H0 F2 IH]; intros z I; [destruct I|]. inversion Q; subst. destruct I as [<-|I]; [exists i0; auto|apply IH; auto]. }
  assert (OX : Forall (fun x => x_ok (snd x)) xs). { apply Forall_forall. intros [a v] I. destruct (AT _ I) as (i & _ & A & V). apply (OV a). apply (pos_val h f HT i a v A); auto. }
  destruct (log_cells_ok 0 xs OX) as (es & SH & CE & OP). destruct (rows_ok 4 _ _ ltac:(lia) CE OP) as (rows & ER & OR & RO & AE).
  assert (TX : fit_out f = Ok (concat (map ln ([[]; ref_title] ++ rows ++ [[]])))).
  { unfold fit_out. fold t. rewrite E. cbn [omap obind]. f_equal. rewrite !concat_ln_app. cbn [map concat]. rewrite app_nil_r, <- !app_assoc. f_equal. f_equal. rewrite app_assoc. f_equal.
    rewrite <- ER. destruct xs as [|x xs]. reflexivity. symmetry. apply log_render. discriminate. }
  exists rows, xs. split; auto. split; auto. split; auto. split. rewrite AE; auto. split.
  - pose proof (order_spec h) as (_ & SP). rewrite <- HT in SP. fold t in SP.
    assert (SS : StronglySorted (fun i j => forall a b, nth_error (pid t) i = Some a -> nth_error (pid t) j = Some b -> (a < b)%Z) (order_by_id t)).
    { clear -SP. revert SP. generalize (order_by_id t). induction l as [|i l IH]; intros SP; constructor. apply IH. intros j k i1 i2 a b JK. apply (SP (S j) (S k)). lia.
      apply Forall_forall. intros j J a b A B. apply In_nth_error in J as [k K]. apply (SP 0%nat (S k) i j a b); auto. lia. }
    assert (SF : StronglySorted (fun i j => forall a b, nth_error (pid t) i = Some a -> nth_error (pid t) j = Some b -> (a < b)%Z) (filter is_free (order_by_id t))).
    { clear -SS. induction SS as [|i l S IH F]; cbn [filter]. constructor. destruct (is_free i); auto. constructor; auto. rewrite Forall_forall in *. intros j J. apply filter_In in J. apply F. tauto. }
    clear -F2 SF. revert SF. induction F2 as [|i x l xs (A & V) F2 IH]; intros SF; cbn; constructor; inversion SF as [|? ? SF' FF]; subst; auto.
    clear IH SF SF'. revert FF. induction F2 as [|j y l xs (B & W) F2 IH]; intros FF; cbn; constructor; inversion FF; subst; auto.
  - intros a v. split.
    + intros I. destruct (AT _ I) as (i & FR & A & V). cbn [fst snd] in A, V. split; [|apply (pos_val h f HT i a v A); auto]. apply (pos_flag h f HT i a true A). unfold is_free in FR. fold t. destruct (nth_error (pfree t) i); congruence.
    + intros (FL & V). destruct (known_pos h f HT a) as [i A]. congruence. apply (pos_flag h f HT i a true A) in FL. apply (pos_val h f HT i a v A) in V. fold t in A, V, FL.
      assert (I : In i (filter is_free (order_by_id t))). { apply filter_In. split. apply (order_in f). eapply nth_lt; eauto. unfold is_free. rewrite FL. auto. }
      clear -F2 I A V. induction F2 as [|j y l xs (B & W) F2 IH]; [destruct I|]. destruct I as [->|I]. left. destruct y; cbn in *; congruence. right; auto.
Qed.
Lemma log_ok : (forall a v, last_set a (rev h) = Some v -> x_ok v) ->
  exists tx xs, fit_out f = Ok tx /\
    rows_of 4 (block (chars " Refinement parameters :") (lines tx)) /\ Forall2 log_shown (all_entries (block (chars " Refinement parameters :") (lines tx))) xs /\
    StronglySorted Z.lt (map fst xs) /\
    forall a v, In (a, v) xs <-> flag_of a (rev h) = Some true /\ last_set a (rev h) = Some v.
Proof.
  intros OV. destruct (log_rows OV) as (rows & xs & TX & OR & RO & SH & SS & IN).
  exists (concat (map ln ([[]; ref_title] ++ rows ++ [[]]))), xs. split; auto.
  assert (BL : block (chars " Refinement parameters :") (lines (concat (map ln ([[]; ref_title] ++ rows ++ [[]])))) = rows).
  { rewrite lines_concat. 2:{ cbn [app]. apply Forall_cons; [apply nil_line|]. apply Forall_cons; [apply one_chars; reflexivity|]. apply Forall_app; split; auto. apply Forall_cons; [apply nil_line|apply Forall_nil]. }
    unfold block. change (([[]; ref_title] ++ rows ++ [[]])) with ([[]] ++ chars " Refinement parameters :" :: rows ++ [[]]). rewrite after_skip. 2:{ intros [I|[]]; discriminate. } apply upto_app. eapply rows_not; eauto. }
  rewrite BL. auto.
Qed.
End Log.
