(** Characters of the log of a refinement. *)
From Coq Require Import Ascii String List Arith ZArith Reals Bool Lia Lra Sorting.Sorted.
From Verif Require Import Base RSum GaussModel GaussSpec LsModel LsSpec LsProof ParamModel ParamSpec ParamProof OrderModel MatrixModel ParserModel DataModel DataSpec DataProof
  FmtModel FmtSpec SaveModel ReportModel ReportProof OutModel OutSpec OutProof OutPhase OutFinal FitTextModel FitTextSpec FitTextProof FitTextFinal RunLogModel RunLogSpec.
Import ListNotations.
Local Open Scope R_scope.

(** * a table is the result of calls *)
Lemma upd_last {A} (l : list A) x y : upd (length l) y (l ++ [x]) = l ++ [y].
Proof. induction l; cbn; congruence. Qed.
Lemma table_calls {T} (xs : list (T * bool * Z)) : NoDup (map snd xs) -> Forall (fun x => (0 <= snd x < 4294967296)%Z) xs ->
  exists h, prun ptab_init h = mkPtab (map (fun x => fst (fst x)) xs) (map (fun x => snd (fst x)) xs) (map snd xs).
Proof.
  induction xs as [|[[v b] a] xs IH] using rev_ind; intros ND F. exists []. reflexivity.
  rewrite map_app in ND. apply Forall_app in F as [F FA]. inversion FA as [|? ? HA _]; subst. cbn [snd] in HA.
  assert (NI : ~ In a (map snd xs)). { apply NoDup_remove in ND. rewrite app_nil_r in ND. tauto. }
  assert (ND' : NoDup (map snd xs)). { apply NoDup_remove in ND. rewrite app_nil_r in ND. tauto. }
  destruct (IH ND' F) as [h E]. assert (U : u32 a = a) by (apply Z.mod_small; auto).
  assert (S : setpar (prun ptab_init h) a v = mkPtab (map (fun x => fst (fst x)) xs ++ [v]) (map (fun x => snd (fst x)) xs ++ [true]) (map snd xs ++ [a])).
  { unfold setpar, parfind. rewrite E, U. cbn [pid pval pfree]. rewrite (proj2 (find_pos_none _ _) NI). auto. }
  destruct b.
  - exists (h ++ [PSet a v]). unfold prun. rewrite fold_left_app. cbn [fold_left pstep fst]. fold (prun (@ptab_init T) h). rewrite S, !map_app. reflexivity.
  - exists (h ++ [PSet a v; PFix a]). unfold prun. rewrite fold_left_app. cbn [fold_left pstep fst]. fold (prun (@ptab_init T) h). rewrite S, !map_app. unfold fixpar, setflag.
    destruct (Z.eqb_spec a (-1)); [lia|]. unfold parfind. rewrite U. cbn [pid pval pfree]. rewrite find_pos_app, (proj2 (find_pos_none _ _) NI), Z.eqb_refl.
    replace (length (map snd xs)) with (length (map (fun x : T * bool * Z => snd (fst x)) xs)) by (rewrite !map_length; auto).
    rewrite app_length. cbn [length]. destruct (Nat.ltb_spec (length (map (fun x : T * bool * Z => snd (fst x)) xs)) (length (map (fun x : T * bool * Z => snd (fst x)) xs) + 1)); [|lia].
    rewrite upd_last. reflexivity.
Qed.
Lemma in_up n l : In l (up n) <-> (1 <= l <= n)%nat.
Proof. unfold up. rewrite in_seq. lia. Qed.
Lemma up_nth n i : (i < n)%nat -> nth_error (up n) i = Some (S i).
Proof. intros H. unfold up. rewrite (nth_error_nth' _ 0%nat) by (rewrite seq_length; auto). rewrite seq_nth; auto. Qed.
Lemma log_tab_calls lg o : log_ok_for lg o -> exists h, fd_tab (log_fit lg o) = prun ptab_init h.
Proof.
  intros (R & J & _). destruct (table_calls (map (fun l => (Fin (dbl_of (f_p o l)), f_ia o l, lg_id lg l)) (up (f_ma o)))) as [h E].
  - rewrite map_map. cbn [snd]. assert (Q : forall l m, In l (up (f_ma o)) -> In m (up (f_ma o)) -> lg_id lg l = lg_id lg m -> l = m) by (intros l m; rewrite !in_up; auto).
    assert (N : NoDup (up (f_ma o))) by apply seq_NoDup. revert Q N. generalize (up (f_ma o)). induction l as [|a l IH]; intros Q N; cbn; constructor; inversion N; subst.
    + intros I. apply in_map_iff in I as (m & E & I). assert (m = a) by (apply Q; cbn; auto). congruence.
    + apply IH; auto. intros; apply Q; cbn; auto.
  - apply Forall_forall. intros x I. apply in_map_iff in I as (l & <- & I). apply in_up in I. cbn. auto.
  - exists h. rewrite E. cbn [fd_tab log_fit]. unfold log_tab. rewrite !map_map. reflexivity.
Qed.

(** * parameters of a state *)
Lemma out_says lg o : log_ok_for lg o -> exists rows, fit_out (log_fit lg o) = Ok (concat (map ln ([[]; ref_title] ++ rows ++ [[]]))) /\ Forall one_line rows /\ pars_say lg o (f_p o) rows.
Proof.
  intros K. destruct (log_tab_calls lg o K) as [h E]. set (f := log_fit lg o) in *.
  assert (AT : forall i a, nth_error (pid (fd_tab f)) i = Some a -> (S i <= f_ma o)%nat /\ a = lg_id lg (S i) /\ nth_error (pval (fd_tab f)) i = Some (Fin (dbl_of (f_p o (S i)))) /\ nth_error (pfree (fd_tab f)) i = Some (f_ia o (S i))).
  { intros i a A. cbn [f log_fit fd_tab log_tab pid pval pfree] in *. assert (L : (i < f_ma o)%nat). { apply nth_lt in A. rewrite map_length in A. unfold up in A. rewrite seq_length in A. auto. }
    rewrite (map_nth_error _ _ _ (up_nth _ _ L)) in A. rewrite !(map_nth_error _ _ _ (up_nth _ _ L)). split; [lia|]. split; [congruence|auto]. }
  destruct (log_rows h f E) as (rows & xs & T & O & RO & SH & SS & IN).
  - intros a v V. destruct (known_pos h f E a) as [i A]. { rewrite (flag_none_iff (rev h) a). congruence. }
    destruct (AT i a A) as (_ & _ & PV & _). apply (pos_val h f E i a _ A) in PV. rewrite PV in V. injection V as <-. apply dbl_of_ok.
  - exists rows. split; auto. split; auto. split; auto. exists xs. split; auto. split; auto. intros a x. rewrite IN. split.
    + intros (FL & V). destruct (known_pos h f E a) as [i A]. congruence. destruct (AT i a A) as (L & -> & PV & PF). exists (S i).
      apply (pos_val h f E i _ _ A) in PV. apply (pos_flag h f E i _ _ A) in PF. split; [|split; auto]. split; [lia|congruence]. congruence.
    + intros (l & (L & FR) & <- & ->). assert (A : nth_error (pid (fd_tab f)) (l - 1) = Some (lg_id lg l)).
      { cbn. rewrite (map_nth_error _ _ _ (up_nth _ _ (ltac:(lia) : (l - 1 < f_ma o)%nat))). f_equal. f_equal. lia. }
      destruct (AT _ _ A) as (_ & _ & PV & PF). replace (S (l - 1)) with l in PV, PF by lia. split.
      * apply (pos_flag h f E _ _ true A). rewrite PF. congruence.
      * apply (pos_val h f E _ _ _ A). auto.
Qed.

(** * numbers of a state *)
Lemma free_count_len o : free_count (f_ia o) (f_ma o) = length (filter (f_ia o) (seq 1 (f_ma o))).
Proof.
  rewrite free_count_rank. generalize (f_ma o). induction n as [|n IH]; auto. replace (seq 1 (S n)) with (seq 1 n ++ [S n]) by (symmetry; apply (seq_S n 1)). rewrite filter_app, app_length, <- IH.
  cbn [rank filter]. destruct (f_ia o (S n)); cbn; lia.
Qed.
Lemma dbl_of_div a b : 0 < b \/ b < 0 /\ 0 < a -> x_div (Fin (dbl_of a)) (Fin (dbl_of b)) = Fin (dbl_of (a / b)).
Proof.
  intros B. assert (NZ : b <> 0) by (destruct B as [B|[B _]]; lra). unfold x_div. cbn [dbl_of d_mag d_neg]. destruct (Req_EM_T (Rabs b) 0) as [Z|Z]. { apply Rabs_no_R0 in NZ. contradiction. }
  unfold dbl_of. f_equal. f_equal. 2:{ unfold Rdiv. rewrite Rabs_mult, Rabs_inv; auto. }
  assert (M : a / b * b = a) by (field; auto). destruct B as [B|[B A]].
  - assert (I : 0 < / b) by (apply Rinv_0_lt_compat; auto). destruct (Rlt_dec b 0); [lra|]. destruct (Rlt_dec a 0), (Rlt_dec (a / b) 0); auto; exfalso.
    + apply n0. unfold Rdiv. rewrite <- (Rmult_0_l (/ b)). apply Rmult_lt_compat_r; auto.
    + apply n0. rewrite <- M, <- (Rmult_0_l b). apply Rmult_lt_compat_r; auto.
  - assert (I : / b < 0) by (apply Rinv_lt_0_compat; auto). destruct (Rlt_dec b 0); [|lra]. destruct (Rlt_dec a 0); [lra|]. destruct (Rlt_dec (a / b) 0); auto; exfalso. apply n0. unfold Rdiv. nra.
Qed.
Lemma dbl_of_inf a : 0 < a -> x_div (Fin (dbl_of a)) (Fin (dbl_of 0)) = Inf false.
Proof.
  intros A. unfold x_div. cbn [dbl_of d_mag d_neg]. rewrite Rabs_R0. destruct (Req_EM_T 0 0); [|congruence]. rewrite Rabs_right by lra. destruct (Req_EM_T a 0); [lra|].
  destruct (Rlt_dec a 0); [lra|]. destruct (Rlt_dec 0 0); [lra|]. auto.
Qed.
Lemma x_div_ok a b : x_ok a -> x_ok b -> x_ok (x_div a b).
Proof.
  unfold x_div, x_ok, dbl_ok. destruct a as [x|s|], b as [y|s'|]; auto; cbn [d_mag]; intros A B; try lra. destruct (Req_EM_T (d_mag y) 0). destruct (Req_EM_T (d_mag x) 0); auto. cbn [d_mag].
  apply Rmult_le_pos; auto. apply Rlt_le, Rinv_0_lt_compat. lra.
Qed.
Lemma x_sqrt_ok a : x_ok a -> x_ok (x_sqrt a).
Proof. unfold x_sqrt, x_ok, dbl_ok. destruct a as [x|[|]|]; auto. intros A. destruct (Req_EM_T (d_mag x) 0); auto. destruct (d_neg x); auto. cbn. apply sqrt_pos. Qed.
Lemma fin_ok x : x_ok (Fin (dbl_of x)). Proof. apply dbl_of_ok. Qed.
Lemma red_ok lg o c : x_ok (log_red lg o c). Proof. apply x_div_ok; apply fin_ok. Qed.
Lemma rw_ok lg c : x_ok (log_rw lg c). Proof. apply x_sqrt_ok, x_div_ok; apply fin_ok. Qed.
Lemma red_line lg o c : red_says lg o c (x_general 6 (log_red lg o c)).
Proof.
  pose proof (x_general_ok 6 (log_red lg o c) ltac:(lia) (red_ok lg o c)) as P. unfold log_red in *. rewrite free_count_len in *. fold (surplus lg o) in *. split.
  - intros S. rewrite dbl_of_div in P; auto. rewrite dbl_of_div; auto. all: destruct S as [S|[S A]]; [left; apply (IZR_lt 0); auto|right; split; auto; apply (IZR_lt _ 0); auto].
  - intros -> A. rewrite dbl_of_inf; auto.
Qed.
Lemma rw_line lg c : rw_says lg c (x_general 6 (log_rw lg c)).
Proof.
  pose proof (x_general_ok 6 (log_rw lg c) ltac:(lia) (rw_ok lg c)) as P. unfold log_rw in *. split; [|split].
  - intros W C. rewrite dbl_of_div in P by auto. rewrite dbl_of_div by auto.
    assert (Q : 0 <= c / lg_wnorm lg) by (apply Rmult_le_pos; auto; apply Rlt_le, Rinv_0_lt_compat; auto).
    assert (E : x_sqrt (Fin (dbl_of (c / lg_wnorm lg))) = Fin (dbl_of (sqrt (c / lg_wnorm lg)))).
    { unfold x_sqrt, dbl_of. cbn [d_mag d_neg]. pose proof (sqrt_pos (c / lg_wnorm lg)). rewrite (Rabs_right (c / lg_wnorm lg)) by lra. rewrite (Rabs_right (sqrt _)) by lra.
      destruct (Rlt_dec (c / lg_wnorm lg) 0); [lra|]. destruct (Rlt_dec (sqrt (c / lg_wnorm lg)) 0); [lra|]. destruct (Req_EM_T (c / lg_wnorm lg) 0) as [Z|Z]; auto. rewrite Z, sqrt_0. auto. }
    rewrite E in *. auto.
  - intros W C. rewrite dbl_of_div by auto. unfold x_sqrt, dbl_of. cbn [d_mag d_neg].
    assert (Q : c / lg_wnorm lg < 0). { unfold Rdiv. rewrite <- (Rmult_0_l (/ lg_wnorm lg)). apply Rmult_lt_compat_r; auto. apply Rinv_0_lt_compat; auto. }
    destruct (Req_EM_T (Rabs (c / lg_wnorm lg)) 0) as [Z|Z]. { exfalso. revert Z. apply Rabs_no_R0. lra. } destruct (Rlt_dec (c / lg_wnorm lg) 0); [auto|lra].
  - intros W C. rewrite W, dbl_of_inf; auto.
Qed.
Definition num_l lg o c (stag : bool) : text :=
  chars " chisq.: " ++ x_general 6 (Fin (dbl_of c)) ++ chars "   red.chisq.: " ++ x_general 6 (log_red lg o c) ++
               chars "   Rw: " ++ x_general 6 (log_rw lg c) ++ (if stag then chars "    stagnating" else []).
Lemma gen_word x : x_ok x -> word (x_general 6 x).
Proof. intros O. apply (x_part_word 6 x). apply x_general_ok; auto. lia. Qed.
Lemma num_line_one lg o c stag : one_line (num_l lg o c stag).
Proof.
  unfold num_l. rewrite !one_app. repeat split; try (apply one_chars; reflexivity); try (apply word_line, gen_word; auto using fin_ok, red_ok, rw_ok).
  destruct stag. apply one_chars; reflexivity. intros [].
Qed.
Lemma num_line_ok lg o p c stag : numbers_line lg o (mkView p c stag) (num_l lg o c stag).
Proof.
  exists (x_general 6 (Fin (dbl_of c))), (x_general 6 (log_red lg o c)), (x_general 6 (log_rw lg c)). cbn [v_stag v_chisq].
  split; [|split; [apply x_general_ok; [lia|apply fin_ok]|split; [apply red_line|apply rw_line]]].
  pose proof (gen_word _ (fin_ok c)) as W1. pose proof (gen_word _ (red_ok lg o c)) as W2. pose proof (gen_word _ (rw_ok lg c)) as W3. unfold num_l.
  set (a := x_general 6 (Fin (dbl_of c))) in *. set (b := x_general 6 (log_red lg o c)) in *. set (d := x_general 6 (log_rw lg c)) in *. clearbody a b d.
  assert (LW : forall s, forallb (fun c => negb (is_space c)) (chars s) = true -> chars s <> [] -> word (chars s)).
  { intros s F N. split; auto. apply Forall_forall. intros x I. rewrite forallb_forall in F. specialize (F x I). apply negb_true_iff in F. auto. }
  change (chars " chisq.: " ++ ?r) with (chars " " ++ chars "chisq.:" ++ chars " " ++ r).
  change (chars "   red.chisq.: " ++ ?r) with (chars "   " ++ chars "red.chisq.:" ++ chars " " ++ r).
  change (chars "   Rw: " ++ ?r) with (chars "   " ++ chars "Rw:" ++ chars " " ++ r).
  rewrite words_word; [|repeat constructor|apply LW; [reflexivity|discriminate]|reflexivity].
  rewrite words_word; [|repeat constructor|auto|reflexivity].
  rewrite words_word; [|repeat constructor|apply LW; [reflexivity|discriminate]|reflexivity].
  rewrite words_word; [|repeat constructor|auto|reflexivity].
  rewrite words_word; [|repeat constructor|apply LW; [reflexivity|discriminate]|reflexivity].
  rewrite words_word; [|repeat constructor|auto|destruct stag; reflexivity].
  destruct stag; reflexivity.
Qed.
Lemma state_ok lg o stag c : log_ok_for lg o -> exists ls, state_text lg o c stag = Ok (concat (map ln ls)) /\ Forall one_line ls /\ state_says lg o (mkView (f_p o) c stag) ls.
Proof.
  intros K. destruct (out_says lg o K) as (rows & E & OR & P). exists ([] :: chars " Refinement parameters :" :: rows ++ [[]; num_l lg o c stag]). split; [|split].
  - unfold state_text. rewrite E. cbn [cat obind omap]. f_equal.
    change ([] :: chars " Refinement parameters :" :: rows ++ [[]; num_l lg o c stag]) with (([[]; ref_title] ++ rows) ++ [[]] ++ [num_l lg o c stag]).
    change ([[]; ref_title] ++ rows ++ [[]]) with (([[]; ref_title] ++ rows) ++ [[]]). rewrite (app_assoc _ [[]]), (concat_ln_app (_ ++ [[]])). f_equal. cbn [map concat]. rewrite app_nil_r. reflexivity.
  - apply Forall_cons. intros []. apply Forall_cons. apply one_chars; reflexivity. apply Forall_app; split; auto. apply Forall_cons. intros []. apply Forall_cons. apply num_line_one. apply Forall_nil.
  - exists rows, (num_l lg o c stag). split; auto. split; auto. apply num_line_ok.
Qed.

(** * the beginning *)
Lemma sel_ok lg : forall psel ip, (ip + length psel <= length (lg_phases lg))%nat ->
  exists t, sel_text lg ip psel = Ok t /\ one_line t /\ forall r, words (t ++ r) = map (fun x => int_text (snd x)) (filter fst (combine psel (skipn ip (lg_phases lg)))) ++ words r.
Proof.
  induction psel as [|b psel IH]; intros ip L. exists []. split; auto. split. intros []. auto. cbn [length] in L.
  destruct (IH (S ip) ltac:(lia)) as (t & E & O & W). destruct (nth_ex (lg_phases lg) ip ltac:(lia)) as [k K].
  assert (SK : skipn ip (lg_phases lg) = k :: skipn (S ip) (lg_phases lg)).
  { clear -K. revert ip K. induction (lg_phases lg) as [|a l IH]; intros [|i] K; cbn in K; try discriminate. injection K as ->. reflexivity. apply IH in K. cbn [skipn] in *. exact K. }
  rewrite SK. cbn [sel_text combine filter fst]. destruct b.
  - rewrite (rd_some _ _ _ K). cbn [obind]. rewrite E. cbn [omap obind]. eexists. split; [reflexivity|]. split.
    + rewrite !one_app. repeat split; auto. apply word_line, int_text_word. apply one_chars; reflexivity.
    + intros r. rewrite <- !app_assoc. change (int_text k ++ chars "  " ++ t ++ r) with ([] ++ int_text k ++ chars "  " ++ t ++ r). rewrite words_word; [|constructor|apply int_text_word|reflexivity].
      rewrite words_spaces by (repeat constructor). rewrite W. reflexivity.
  - exists t. auto.
Qed.
Lemma sets_ok lg sets : Forall (fun s => (length (snd s) <= length (lg_phases lg))%nat) sets ->
  exists hs, sets_text lg sets = Ok (concat (map ln hs)) /\ Forall one_line hs /\ Forall2 (set_line lg) sets hs.
Proof.
  induction 1 as [|[k psel] sets L F (hs & E & O & S)]. exists []. repeat split; constructor. cbn [snd] in L.
  destruct (sel_ok lg psel 0 ltac:(lia)) as (t & ET & OT & W). exists ((chars " Dataset: " ++ int_text k ++ chars "   Phase: " ++ t) :: hs). cbn [sets_text]. rewrite ET. cbn [obind]. rewrite E. cbn [omap obind map concat].
  split; [|split]. reflexivity.
  - apply Forall_cons; auto. rewrite !one_app. repeat split; auto; try (apply one_chars; reflexivity). apply word_line, int_text_word.
  - constructor; auto. unfold set_line. cbn [fst snd].
    change (chars " Dataset: " ++ ?r) with (chars " " ++ chars "Dataset:" ++ chars " " ++ r). rewrite words_word; [|repeat constructor|split; [repeat constructor|discriminate]|reflexivity].
    rewrite words_word; [|repeat constructor|apply int_text_word|reflexivity].
    change (chars "   Phase: " ++ ?r) with (chars "   " ++ chars "Phase:" ++ chars " " ++ r). rewrite words_word; [|repeat constructor|split; [repeat constructor|discriminate]|reflexivity].
    rewrite words_spaces by (repeat constructor). rewrite <- (app_nil_r t), W. rewrite app_nil_r. reflexivity.
Qed.
Lemma start_ok lg o : log_ok_for lg o -> exists ls, start_text lg = Ok (concat (map ln ls)) /\ Forall one_line ls /\ start_says lg ls.
Proof.
  intros (_ & _ & F). destruct (sets_ok lg _ F) as (hs & E & O & S). exists ([chars "*******************"; chars "Starting refinement"; chars "*******************"] ++ hs).
  split; [|split; [|exists hs; auto]].
  - unfold start_text. rewrite E. cbn [cat obind omap]. reflexivity.
  - apply Forall_app; split; auto. repeat (apply Forall_cons; [apply one_chars; reflexivity|]). apply Forall_nil.
Qed.
