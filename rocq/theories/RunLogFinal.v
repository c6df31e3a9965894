(** The log of a whole refinement. *)
From Coq Require Import Ascii String List Arith ZArith Reals Bool Lia Lra Sorting.Sorted.
From Verif Require Import Base RSum GaussModel GaussSpec LsModel LsSpec LsProof CtlProof LsStep LsRun ParamModel OrderModel MatrixModel ParserModel DataModel DataSpec DataProof
  FmtModel FmtSpec FmtProof SaveModel ReportModel OutModel OutSpec OutProof OutPhase FitTextModel FitTextSpec FitTextProof FitTextFinal RunLogModel RunLogSpec RunLogProof.
Import ListNotations.
Local Open Scope R_scope.

(** * sessions *)
Lemma says_session lg o o1 v ls : same_session o o1 -> state_says lg o1 v ls -> state_says lg o v ls.
Proof.
  intros (M & I & _). unfold state_says, pars_say, numbers_line, red_says, surplus, free. rewrite M, I. auto.
Qed.
Lemma ok_session lg o o1 : same_session o o1 -> log_ok_for lg o -> log_ok_for lg o1.
Proof. intros (M & _). unfold log_ok_for. rewrite M. auto. Qed.
Lemma state_in lg o o1 c stag : same_session o o1 -> log_ok_for lg o ->
  exists ls, state_text lg o1 c stag = Ok (concat (map ln ls)) /\ Forall one_line ls /\ state_says lg o (mkView (f_p o1) c stag) ls.
Proof.
  intros S K. destruct (state_ok lg o1 stag c (ok_session _ _ _ S K)) as (ls & E & O & P). exists ls. split; auto. split; auto. eapply says_session; eauto.
Qed.

(** * lines *)
Definition iter_lines (k : nat) (blocks : list (list text)) : list text :=
  concat (map (fun kb => [] :: iter_title (fst kb) :: snd kb) (combine (seq k (length blocks)) blocks)).
Definition final_lines (final : list text) : list text :=
  [[]; chars "================================ FINAL =================================="] ++ final ++
  [[]; chars "========================================================================="; []].
Lemma cat_lines a b : cat (Ok (concat (map ln a))) (Ok (concat (map ln b))) = Ok (concat (map ln (a ++ b))).
Proof. cbn [cat obind omap]. rewrite concat_ln_app. auto. Qed.
Lemma iter_text_lines k : iter_text k = concat (map ln [[]; iter_title k]).
Proof. unfold iter_text, iter_title. cbn [map concat]. rewrite app_nil_r. auto. Qed.
Lemma final_text_lines : final_text = concat (map ln [[]; chars "================================ FINAL =================================="]).
Proof. reflexivity. Qed.
Lemma end_text_lines : end_text = concat (map ln [[]; chars "========================================================================="; []]).
Proof. reflexivity. Qed.
Lemma iter_title_one k : one_line (iter_title k).
Proof. unfold iter_title. rewrite !one_app. repeat split; try (apply one_chars; reflexivity). apply word_line, int_text_word. Qed.
Lemma nil_cat x : cat (Ok []) x = x.
Proof. destruct x; reflexivity. Qed.

(** * steps *)
Lemma iterate_flag toler o0 ds0 x x' b : under_way o0 ds0 x -> ls_iterate toler x = (x', Ok b) ->
  b = true <-> f_chisq (snd x) - f_chisq (snd x') <= toler * f_chisq (snd x).
Proof.
  intros [ds s I L SS FK BT]. destruct x as [st o]. cbn [fst snd] in *. unfold ls_iterate. set (o1 := set_ochisq o (f_chisq o)).
  assert (I' : lsinv st o1 ds s) by (apply (inv_session st o); auto; repeat split).
  rewrite (mrqmin_nonneg st s o1) by (destruct I; auto; cbn; lra).
  pose proof (mrq_main_step st o1 ds s I' L) as M. destruct (mrq_main s o1) as [[st' o'] [u|e| |]]; cbn [omap obind]; try discriminate.
  destruct M as (_ & OC & _). intros E. injection E as <- <-. cbn [snd]. rewrite OC. cbn [o1 set_ochisq f_ochisq]. destruct (Rle_dec _ _); split; auto; try discriminate.
Qed.
Lemma stag_flag c b : negb (c_stag (bump c b) =? 0)%nat = (negb (c_iter c =? 0)%nat && b)%bool.
Proof. unfold bump. cbn [c_stag]. destruct (negb (c_iter c =? 0)%nat && b)%bool; auto. Qed.

(** states of a running refinement and what is seen of them *)
Fixpoint chain (toler : R) (c : ctl) (x : lst) (vs : list view) (p : nat -> R) (q : R) : Prop :=
  match vs with
  | [] => f_p (snd x) = p /\ f_chisq (snd x) = q
  | v :: vs => exists c1 x1, ls_step toler true c x = (true, c1, x1, Ok false) /\ v_p v = f_p (snd x1) /\ v_chisq v = f_chisq (snd x1) /\
      v_chisq v <= f_chisq (snd x) /\ (v_stag v = true <-> f_chisq (snd x) - v_chisq v <= toler * f_chisq (snd x)) /\ chain toler c1 x1 vs p q
  end.

Lemma first_none lg k x o0 ds0 : under_way o0 ds0 x -> first_text lg k x = Ok [].
Proof. intros [ds s I L SS FK BT]. destruct x as [st o]. cbn [snd] in L. unfold first_text. destruct (Rlt_dec (f_alambda o) 0); auto. lra. Qed.
Lemma improves_le o o' : improves o o' -> f_chisq o' <= f_chisq o.
Proof. intros [[_ E]|E]; lra. Qed.

Lemma log_next lg toler o0 ds0 : log_ok_for lg o0 -> forall fuel c x running' c' x', c_iter c <> 0%nat -> under_way o0 ds0 x ->
  ls_refine toler fuel true c x = (running', c', x', Ok tt) ->
  exists vs blocks final, refine_log lg toler fuel true c x = Ok (concat (map ln (iter_lines (S (c_iter c)) blocks ++ final_lines final))) /\
    Forall one_line (iter_lines (S (c_iter c)) blocks ++ final_lines final) /\
    Forall2 (state_says lg o0) vs blocks /\ state_says lg o0 (mkView (f_p (snd x')) (f_chisq (snd x')) false) final /\
    chain toler c x vs (f_p (snd x')) (f_chisq (snd x')) /\ c_iter c' = (c_iter c + length vs)%nat.
Proof.
  intros K. induction fuel as [|n IH]; intros c x running' c' x' NZ U R. discriminate R.
  unfold ls_refine in R. cbn [refine refine_log] in *. fold (ls_step toler true c x) in R. fold (ls_refine toler n) in R.
  pose proof (step_next toler c o0 ds0 x NZ U) as SN. destruct (ls_step toler true c x) as [[[r1 c1] x1] [[|]|e| |]] eqn:ST; try discriminate R.
  - injection R as <- <- <-. destruct SN as (S1 & F1 & _ & G). destruct (G eq_refl) as (_ & P & C & _). clear G.
    unfold step_log. unfold ls_step, refine_step in ST. destruct (Nat.eqb_spec (c_iter c) 0); [congruence|]. cbn [negb andb] in *. cbv iota in ST.
    destruct (need_more c). { destruct (ls_iterate toler x) as [x2 [b|e| |]]; discriminate ST. }
    unfold ls_finish in ST. destruct x as [st o]. unfold finish_log. destruct (mrqmin st (set_lambda o 0)) as [[st2 o2] q] eqn:MQ.
    destruct q as [u|e| |]; cbn [obind] in ST; try discriminate ST.
    assert (X1 : x1 = (st2, o2) /\ c1 = c). { destruct (omap (fun _ => tt) (f_theory o2 (f_p o2))) as [w|e| |]; try discriminate ST. injection ST as _ <- <-. auto. }
    destruct X1 as [-> ->]. cbn [snd] in *.
    destruct (state_in lg o0 o2 (f_chisq o2) false S1 K) as (final & E & O & SY).
    exists [], [], final. rewrite E. rewrite end_text_lines, final_text_lines, !cat_lines, nil_cat.
    change (Ok []) with (Ok (concat (map ln []))). rewrite !cat_lines, app_nil_r.
    split; [reflexivity|]. split; [|split; [constructor|split; [exact SY|split; [cbn; split; congruence|cbn; lia]]]].
    apply Forall_app; split. apply Forall_nil. unfold final_lines. apply Forall_app; split; [|apply Forall_app; split; [exact O|]].
    + apply Forall_cons. intros []. apply Forall_cons. apply one_chars; reflexivity. apply Forall_nil.
    + apply Forall_cons. intros []. apply Forall_cons. apply one_chars; reflexivity. apply Forall_cons. intros []. apply Forall_nil.
  - destruct SN as (S1 & F1 & G & _). destruct (G eq_refl) as (-> & I1 & U1 & IM & _). clear G.
    destruct (IH c1 x1 running' c' x' ltac:(lia) U1 R) as (vs & blocks & final & E & O & F2 & SF & CH & CI).
    pose proof ST as ST0. unfold step_log. unfold ls_step, refine_step in ST. destruct (Nat.eqb_spec (c_iter c) 0) as [|_]; [congruence|]. cbn [negb andb] in *. cbv iota in ST.
    destruct (need_more c). 2:{ destruct (ls_finish x) as [x2 [b|e| |]]; discriminate ST. }
    destruct (ls_iterate toler x) as [x2 [b|e| |]] eqn:IT; try discriminate ST. injection ST as <- <-.
    unfold iterate_log. rewrite (first_none lg _ x o0 ds0 U), IT, !nil_cat.
    destruct (state_in lg o0 (snd x2) (f_chisq (snd x2)) (negb (c_stag (bump c b) =? 0)%nat) S1 K) as (ls & ES & OS & SY).
    exists (mkView (f_p (snd x2)) (f_chisq (snd x2)) (negb (c_stag (bump c b) =? 0)%nat) :: vs), (ls :: blocks), final.
    assert (EQ : iter_lines (S (c_iter c)) (ls :: blocks) ++ final_lines final = ([[]; iter_title (c_iter (bump c b))] ++ ls) ++ iter_lines (S (c_iter (bump c b))) blocks ++ final_lines final).
    { unfold iter_lines. cbn [length seq combine map concat fst snd]. cbn [c_iter bump]. rewrite <- !app_assoc. cbn [app]. reflexivity. }
    rewrite EQ. rewrite ES, E, iter_text_lines, !cat_lines. split; [reflexivity|]. split.
    { apply Forall_app; split; auto. apply Forall_cons. intros []. apply Forall_cons. apply iter_title_one. auto. }
    split. constructor; auto. split; auto. split. 2:{ rewrite CI, I1. cbn [length]. lia. }
    exists (bump c b), x2. cbn [v_p v_chisq v_stag]. split; auto. split; auto. split; auto. split. apply improves_le; auto. split; auto.
    rewrite stag_flag. destruct (Nat.eqb_spec (c_iter c) 0) as [|_]; [congruence|]. cbn [negb andb]. apply (iterate_flag toler o0 ds0 x x2 b U IT).
Qed.

(** the first step *)
Lemma log_first lg toler running c st o c1 x1 r1 : fresh running c -> log_ok_for lg o -> ls_step toler running c (st, o) = (r1, c1, x1, Ok false) ->
  exists ds0 head b0 b1, f_theory o (f_p o) = Ok ds0 /\ under_way o ds0 x1 /\ r1 = true /\ c_iter c1 = 1%nat /\
    step_log lg toler running c (st, o) = Ok (concat (map ln (head ++ iter_lines 0 [b0; b1]))) /\
    Forall one_line (head ++ iter_lines 0 [b0; b1]) /\ start_says lg head /\
    state_says lg o (mkView (f_p o) (chisq_of ds0) false) b0 /\ state_says lg o (mkView (f_p (snd x1)) (f_chisq (snd x1)) false) b1 /\
    f_chisq (snd x1) <= chisq_of ds0.
Proof.
  intros F K ST. pose proof (step_fresh toler running c st o F) as SF. rewrite ST in SF. destruct SF as (S1 & _ & -> & _ & G). destruct (G eq_refl) as (I1 & SU & ds0 & TH & U & _). clear G.
  assert (LE : f_chisq (snd x1) <= chisq_of ds0). { destruct U as [ds s I L SS FK BT]. rewrite (i_c _ _ _ _ I). destruct BT as [[_ BT]|BT]; lra. }
  unfold step_log. unfold ls_step, refine_step in ST. rewrite (fresh_false _ _ F) in *.
  pose proof (ls_setup_spec st o) as SS. destruct (ls_setup (st, o)) as [[st1 o1] q1]. cbn [fst snd] in SS. destruct SS as (-> & SE & P & LM & D & RS).
  destruct q1 as [[]|e| |]; try discriminate ST. change (need_more (mkC 0 0)) with true in *. cbv iota in ST.
  destruct (ls_iterate toler (st, o1)) as [x2 [b|e| |]] eqn:IT; try discriminate ST. injection ST as <- <-.
  destruct (start_ok lg o K) as (head & EH & OH & HS).
  unfold iterate_log, first_text. rewrite IT. destruct (Rlt_dec (f_alambda o1) 0) as [_|N]; [|rewrite LM in N; lra].
  pose proof (mrq_init_fresh st o1 ltac:(rewrite LM; lra) (D eq_refl)) as MI.
  destruct (mrq_init st o1) as [[st2 o2] [u|e| |]] eqn:MQ.
  - destruct MI as (ds1 & s & TH1 & I & MS & P2 & _).
    assert (ds1 = ds0). { destruct SE as (_ & _ & E3 & _). rewrite E3, P in TH1. congruence. } subst ds1.
    destruct (state_in lg o o2 (f_chisq o2) false (same_trans _ _ _ SE MS) K) as (b0 & E0 & O0 & SY0). rewrite P2, P, (i_c _ _ _ _ I) in SY0.
    assert (SF : negb (c_stag (bump (mkC 0 0) b) =? 0)%nat = false) by reflexivity. rewrite SF.
    destruct (state_in lg o (snd x2) (f_chisq (snd x2)) false S1 K) as (b1 & E1 & O1 & SY1).
    exists ds0, head, b0, b1. split; auto. split; auto. split; auto. split; auto. split; [|split; [|repeat split; auto]].
    + rewrite EH, E0, E1, !iter_text_lines, !cat_lines. f_equal. f_equal. f_equal. f_equal. unfold iter_lines. cbn [length seq combine map concat fst snd]. rewrite app_nil_r. cbn [app]. reflexivity.
    + apply Forall_app; split; auto. unfold iter_lines. cbn [length seq combine map concat fst snd]. rewrite app_nil_r.
      apply Forall_app; split; (apply Forall_cons; [intros []|apply Forall_cons; [apply iter_title_one|auto]]).
  - exfalso. unfold ls_iterate, mrqmin in IT. assert (Q : exists s3 o3 e3, mrq_init st (set_ochisq o1 (f_chisq o1)) = (s3, o3, Err e3)).
    { pose proof (mrq_init_fresh st (set_ochisq o1 (f_chisq o1)) ltac:(cbn; rewrite LM; lra) (D eq_refl)) as MJ. destruct MI as (_ & _ & T). destruct (mrq_init st (set_ochisq o1 (f_chisq o1))) as [[s3 o3] [u|e3| |]].
      destruct MJ as (d & s & T' & _). cbn in T'. congruence. eauto. destruct MJ as (_ & _ & T'). cbn in T'. congruence. destruct MJ as (_ & _ & T'). cbn in T'. congruence. }
    destruct Q as (s3 & o3 & e3 & Q). rewrite Q in IT. discriminate IT.
  - exfalso. destruct MI as (_ & _ & T). destruct SE as (_ & _ & E3 & _). rewrite E3, P in T. congruence.
  - exfalso. destruct MI as (_ & _ & T). destruct SE as (_ & _ & E3 & _). rewrite E3, P in T. congruence.
Qed.

(** * the whole log *)
Lemma chain_steps toler running c0 x0 : forall vs n c x p q, ls_steps toler n running c0 x0 = Some (true, c, x) -> chain toler c x vs p q ->
  forall j, (j < length vs)%nat -> exists c' x' v w, ls_steps toler (S (n + j)) running c0 x0 = Some (true, c', x') /\ nth_error vs j = Some v /\
    v_p v = f_p (snd x') /\ v_chisq v = f_chisq (snd x') /\
    match j with O => w = f_chisq (snd x) | S i => exists u, nth_error vs i = Some u /\ w = v_chisq u end /\
    v_chisq v <= w /\ (v_stag v = true <-> w - v_chisq v <= toler * w).
Proof.
  induction vs as [|v vs IH]; intros n c x p q S CH j L. cbn in L; lia.
  destruct CH as (c1 & x1 & ST & VP & VC & LE & VS & CH).
  assert (S1 : ls_steps toler (Datatypes.S n) running c0 x0 = Some (true, c1, x1)) by (cbn [ls_steps]; rewrite S, ST; auto).
  destruct j as [|j].
  - exists c1, x1, v, (f_chisq (snd x)). rewrite Nat.add_0_r. repeat split; auto; apply VS.
  - cbn [length] in L. destruct (IH _ _ _ _ _ S1 CH j ltac:(lia)) as (c' & x' & u & w & A & B & C & D & E & F & G). exists c', x', u, w.
    replace (Datatypes.S (n + Datatypes.S j)) with (Datatypes.S (Datatypes.S n + j)) by lia. repeat split; auto; try apply G.
    destruct j as [|j]. exists v. subst w. split; auto. exact E.
Qed.
Lemma chain_last toler : forall vs c x v p q, v_p v = f_p (snd x) -> v_chisq v = f_chisq (snd x) -> chain toler c x vs p q ->
  exists before u, v :: vs = before ++ [u] /\ v_p u = p /\ v_chisq u = q.
Proof.
  induction vs as [|w vs IH]; intros c x v p q VP VC CH.
  - destruct CH as [<- <-]. exists [], v. auto.
  - destruct CH as (c1 & x1 & _ & WP & WC & _ & _ & CH). destruct (IH _ _ _ _ _ WP WC CH) as (before & u & E & A & B). exists (v :: before), u. rewrite E. auto.
Qed.

Theorem log_whole lg toler fuel running c st o running' c' x' : fresh running c -> log_ok_for lg o ->
  ls_refine toler fuel running c (st, o) = (running', c', x', Ok tt) ->
  exists t views, refine_log lg toler fuel running c (st, o) = Ok t /\ log_says lg o views (lines t) /\ history toler running c st o views /\
    length views = S (c_iter c') /\ exists before v, views = before ++ [v] /\ v_p v = f_p (snd x') /\ v_chisq v = f_chisq (snd x').
Proof.
  intros F K R. destruct fuel as [|n]; [discriminate R|]. unfold ls_refine in R. cbn [refine refine_log] in *. fold (ls_step toler running c (st, o)) in R. fold (ls_refine toler n) in R.
  pose proof (step_fresh toler running c st o F) as SF. destruct (ls_step toler running c (st, o)) as [[[r1 c1] x1] [[|]|e| |]] eqn:ST; try discriminate R.
  { destruct SF as (_ & _ & _ & N & _). congruence. } clear SF.
  destruct (log_first lg toler running c st o c1 x1 r1 F K ST) as (ds0 & head & b0 & b1 & TH & U & -> & I1 & EL & OL & HS & SY0 & SY1 & LE).
  destruct (log_next lg toler o ds0 K n c1 x1 running' c' x' ltac:(lia) U R) as (vs & blocks & final & E & O & F2 & SF & CH & CI).
  set (v0 := mkView (f_p o) (chisq_of ds0) false) in *. set (v1 := mkView (f_p (snd x1)) (f_chisq (snd x1)) false) in *.
  rewrite EL, E, cat_lines. exists (concat (map ln ((head ++ iter_lines 0 [b0; b1]) ++ iter_lines (S (c_iter c1)) blocks ++ final_lines final))), (v0 :: v1 :: vs). split; auto.
  rewrite lines_concat by (apply Forall_app; split; auto).
  destruct (chain_last toler vs c1 x1 v1 _ _ eq_refl eq_refl CH) as (before & u & EQ & UP & UC). fold v1 in EQ.
  split; [|split; [|split]].
  - exists head, (b0 :: b1 :: blocks), (mkView (f_p (snd x')) (f_chisq (snd x')) false), final. split; [|split; [auto|split; [repeat (constructor; auto)|split; auto]]].
    + rewrite <- !app_assoc. f_equal. rewrite I1. unfold iter_lines, final_lines. cbn [length seq combine map concat fst snd]. rewrite app_nil_r. cbn [app]. rewrite <- !app_assoc. cbn [app]. rewrite <- !app_assoc. reflexivity.
    + exists (v0 :: before), u. split. rewrite EQ; auto. rewrite UP, UC. auto.
  - assert (S1 : ls_steps toler 1 running c (st, o) = Some (true, c1, x1)) by (cbn [ls_steps]; rewrite ST; auto).
    split. exists ds0, v0. auto. intros [|[|k]] L P; [lia| |].
    + exists true, c1, x1, v1, v0. cbn [Nat.sub nth_error v0 v1 v_p v_chisq v_stag]. repeat split; auto; try discriminate; try lia.
    + cbn [length] in L. destruct (chain_steps toler running c (st, o) vs 1 c1 x1 _ _ S1 CH k ltac:(lia)) as (c2 & x2 & v & w & A & B & C & D & W & LW & G).
      assert (HW : exists v', nth_error (v0 :: v1 :: vs) (S (S k) - 1) = Some v' /\ w = v_chisq v').
      { destruct k as [|k]. exists v1. auto. destruct W as (v' & N & W). exists v'. cbn. auto. }
      destruct HW as (v' & NV & ->). exists true, c2, x2, v, v'. replace (S (S k)) with (S (1 + k)) at 1 by lia. split; auto. split; auto. split; auto. split; auto. split; auto. split; auto. rewrite G. split; [intros; split; [lia|auto]|tauto].
  - cbn [length]. rewrite CI, I1. lia.
  - exists (v0 :: before), u. rewrite EQ. auto.
Qed.

(** * searching *)
Lemma int_chars z : Forall (fun c => c <> "*"%char /\ c <> "c"%char /\ c <> "D"%char) (int_text z).
Proof.
  unfold int_text. destruct (dec_text_pd (Z.abs z) ltac:(lia)) as (d & -> & F & _). apply Forall_app; split.
  - destruct (z <? 0)%Z; repeat constructor; discriminate.
  - unfold print_digits. apply Forall_forall. intros c I. apply in_map_iff in I as (k & <- & I). rewrite Forall_forall in F. specialize (F k I).
    do 10 (destruct k as [|k]; [repeat split; discriminate|]). lia.
Qed.
Lemma entries_first ws e es : entries ws = e :: es -> exists r, ws = fst e :: r.
Proof.
  destruct ws as [|k [|v [|s r]]]; cbn [entries]; try discriminate.
  - intros E. injection E as <- _. eauto.
  - destruct (paren s); intros E; injection E as <- _; eauto.
Qed.
Lemma rows_first lg o p rows : pars_say lg o p rows -> Forall (fun l => exists a ws, words l = (int_text a ++ chars ":") :: ws) rows.
Proof.
  intros ((F & _) & xs & SH & _). apply Forall_forall. intros l I. rewrite Forall_forall in F. specialize (F l I). cbn beta in F.
  destruct (entries (words l)) as [|e es] eqn:E; [cbn in F; lia|]. destruct (entries_first _ _ _ E) as [r W].
  assert (IE : In e (all_entries rows)). { unfold all_entries. apply in_concat. exists (entries (words l)). split. apply in_map_iff; eauto. rewrite E. left; auto. }
  assert (Q : exists x, log_shown e x). { clear -SH IE. induction SH as [|e0 x es xs H SH IH]; [destruct IE|]. destruct IE as [->|IE]; eauto. }
  destruct Q as ((a & v) & N & _). exists a, r. rewrite W. f_equal. exact N.
Qed.
Definition stars : text := chars "********************************".
Definition first_not (l : text) : Prop := match words l with w :: _ => w <> stars /\ w <> chars "chisq.:" | [] => True end.
Lemma strip_first l t : strip (chars "******************************** ITER: ") l = Some t -> exists ws, words l = stars :: ws.
Proof.
  intros S. apply strip_some in S. subst l. exists (words (chars " ITER: " ++ t)).
  change (chars "******************************** ITER: " ++ t) with ([] ++ stars ++ chars " ITER: " ++ t). apply words_word. constructor. split; [repeat constructor|discriminate]. reflexivity.
Qed.
Lemma quiet_iter ls : Forall (fun l => match words l with w :: _ => w <> stars | [] => True end) ls -> iter_words ls = [].
Proof.
  induction 1 as [|l ls Q F IH]; auto. unfold iter_words in *. cbn [flat_map]. rewrite IH, app_nil_r. destruct (strip _ l) as [t|] eqn:S; auto.
  apply strip_first in S as [ws W]. rewrite W in Q. congruence.
Qed.
Lemma quiet_chisq ls : Forall (fun l => match words l with w :: _ => w <> chars "chisq.:" | [] => True end) ls -> chisq_words ls = [].
Proof.
  induction 1 as [|l ls Q F IH]; auto. unfold chisq_words in *. cbn [flat_map]. rewrite IH, app_nil_r. destruct (words l) as [|w [|v ws]]; auto.
  destruct (text_eqb w (chars "chisq.:")) eqn:E; auto. apply text_eqb_eq in E. congruence.
Qed.
Lemma iter_app a b : iter_words (a ++ b) = iter_words a ++ iter_words b. Proof. apply flat_map_app. Qed.
Lemma chisq_app a b : chisq_words (a ++ b) = chisq_words a ++ chisq_words b. Proof. apply flat_map_app. Qed.
Lemma impl2 (P Q R : text -> Prop) ls : (forall l, P l -> Q l /\ R l) -> Forall P ls -> Forall Q ls /\ Forall R ls.
Proof. intros H F. split; revert F; apply Forall_impl; intros l X; apply H; auto. Qed.
Lemma row_quiet a : (int_text a ++ chars ":") <> stars /\ (int_text a ++ chars ":") <> chars "chisq.:".
Proof.
  pose proof (int_chars a) as F. destruct (int_free a) as [_ N]. destruct (int_text a) as [|c r]; [congruence|]. inversion F as [|? ? (A & B & _) _]; subst.
  split; intros E; injection E as E _; congruence.
Qed.
Lemma state_quiet lg o v ls : state_says lg o v ls -> iter_words ls = [] /\ exists w, chisq_words ls = [w] /\ x_part 6 (Fin (dbl_of (v_chisq v))) w.
Proof.
  intros (rows & l & -> & P & w1 & w2 & w3 & W & X & _). pose proof (rows_first _ _ _ _ P) as RF.
  assert (RQ : Forall first_not rows). { revert RF. apply Forall_impl. intros r (a & ws & E). unfold first_not. rewrite E. apply row_quiet. }
  change ([] :: chars " Refinement parameters :" :: rows ++ [[]; l]) with ([[]; chars " Refinement parameters :"] ++ rows ++ [[]] ++ [l]). split.
  - apply quiet_iter. apply Forall_app; split. { apply Forall_cons; [exact I|]. apply Forall_cons; [discriminate|apply Forall_nil]. }
    apply Forall_app; split. { revert RQ. apply Forall_impl. unfold first_not. intros r. destruct (words r); tauto. }
    apply Forall_cons; [exact I|]. apply Forall_cons; [|apply Forall_nil]. rewrite W. discriminate.
  - exists w1. split; auto. rewrite !chisq_app.
    rewrite (quiet_chisq rows). 2:{ revert RQ. apply Forall_impl. unfold first_not. intros r. destruct (words r); tauto. }
    change (chisq_words [[]; chars " Refinement parameters :"]) with (@nil text). change (chisq_words [[]]) with (@nil text). unfold chisq_words. cbn [flat_map app]. rewrite W. cbn [app]. reflexivity.
Qed.
Lemma title_words k : iter_words [iter_title k] = [int_text (Z.of_nat k)] /\ chisq_words [iter_title k] = [].
Proof.
  split.
  - unfold iter_words, iter_title. cbn [flat_map]. rewrite strip_app.
    change (int_text (Z.of_nat k) ++ chars " ********************************") with ([] ++ int_text (Z.of_nat k) ++ chars " ********************************").
    rewrite words_word; [reflexivity|constructor|apply int_text_word|reflexivity].
  - apply quiet_chisq. apply Forall_cons; [|apply Forall_nil]. destruct (strip_first (iter_title k) _ (strip_app _ _)) as [ws ->]. discriminate.
Qed.
Lemma start_quiet lg ls : start_says lg ls -> iter_words ls = [] /\ chisq_words ls = [].
Proof.
  intros (hs & -> & F). rewrite iter_app, chisq_app.
  assert (Q : Forall first_not hs). { revert F. generalize (lg_sets lg). intros sets F. induction F as [|s h sets hs H F IH]; constructor; auto. unfold first_not. rewrite H. split; discriminate. }
  rewrite (quiet_iter hs), (quiet_chisq hs). split; reflexivity. all: revert Q; apply Forall_impl; unfold first_not; intros r; destruct (words r); tauto.
Qed.
Lemma search_log lg o views ls : log_says lg o views ls ->
  iter_words ls = map (fun k => int_text (Z.of_nat k)) (seq 0 (length views)) /\
  exists v, (exists before, views = before ++ [v]) /\ Forall2 (fun w q => x_part 6 (Fin (dbl_of q)) w) (chisq_words ls) (map v_chisq views ++ [v_chisq v]).
Proof.
  intros (head & blocks & fin & final & -> & HS & F2 & (before & v & EV & ->) & SF). destruct (start_quiet _ _ HS) as [H1 H2]. destruct (state_quiet _ _ _ _ SF) as [L1 (w & L2 & LX)].
  fold (iter_lines 0 blocks).
  assert (B : forall k, iter_words (iter_lines k blocks) = map (fun k => int_text (Z.of_nat k)) (seq k (length views)) /\
     Forall2 (fun w q => x_part 6 (Fin (dbl_of q)) w) (chisq_words (iter_lines k blocks)) (map v_chisq views)).
  { clear -F2. induction F2 as [|u b vs bs H F2 IH]; intros k. split; [reflexivity|constructor]. destruct (IH (S k)) as [I1 I2]. destruct (state_quiet _ _ _ _ H) as [Q1 (w & Q2 & X)]. destruct (title_words k) as [T1 T2].
    replace (iter_lines k (b :: bs)) with ([[]] ++ [iter_title k] ++ b ++ iter_lines (S k) bs) by reflexivity. rewrite !iter_app, !chisq_app. rewrite I1, Q1, Q2, T1, T2. split. reflexivity. constructor; auto. }
  destruct (B 0%nat) as [B1 B2]. split.
  - rewrite !iter_app, H1, B1, L1. cbn [app]. rewrite <- app_nil_r. reflexivity.
  - exists v. split; eauto. rewrite !chisq_app, H2, L2. cbn [app]. apply Forall2_app; auto. change (chisq_words [[]; chars "================================ FINAL =================================="]) with (@nil text).
    change (chisq_words [[]; chars "========================================================================="; []]) with (@nil text). constructor; auto.
Qed.
Theorem log_search lg toler fuel running c st o running' c' x' : fresh running c -> log_ok_for lg o ->
  ls_refine toler fuel running c (st, o) = (running', c', x', Ok tt) ->
  exists t qs, refine_log lg toler fuel running c (st, o) = Ok t /\
    iter_words (lines t) = map (fun k => int_text (Z.of_nat k)) (seq 0 (S (c_iter c'))) /\
    Forall2 (fun w q => x_part 6 (Fin (dbl_of q)) w) (chisq_words (lines t)) (qs ++ [f_chisq (snd x')]) /\
    length qs = S (c_iter c') /\ (exists ds, f_theory o (f_p o) = Ok ds /\ nth_error qs 0 = Some (chisq_of ds)) /\ nth_error qs (c_iter c') = Some (f_chisq (snd x')) /\
    StronglySorted Rge qs.
Proof.
  intros F K R. destruct (log_whole lg toler fuel running c st o running' c' x' F K R) as (t & views & E & LS & H & LN & before & v & EV & VP & VC).
  destruct (search_log _ _ _ _ LS) as (A & u & (b2 & EU) & B). exists t, (map v_chisq views). split; auto. rewrite LN in A. split; auto.
  assert (u = v). { rewrite EV in EU. apply app_inj_tail in EU. symmetry; tauto. } subst u. rewrite VC in B. split; auto. rewrite map_length. split; auto. destruct H as ((ds & v0 & N0 & TH & E0) & H). split; [|split].
  - exists ds. split; auto. rewrite (map_nth_error _ _ _ N0), E0. auto.
  - rewrite EV. rewrite EV, app_length in LN. cbn [length] in LN. rewrite map_app, nth_error_app2; rewrite map_length; [|lia]. replace (c_iter c' - length before)%nat with 0%nat by lia. cbn. congruence.
  - apply Sorted_StronglySorted. intros a b d; lra.
    assert (Q : forall k v v', nth_error views (S k) = Some v -> nth_error views k = Some v' -> v_chisq v <= v_chisq v').
    { intros k w w' W W'. assert (L : (S k < length views)%nat) by (apply nth_error_Some; congruence). destruct (H (S k) L ltac:(lia)) as (_ & _ & _ & x & x2 & _ & X & _ & _ & X2 & LE & _).
      replace (S k - 1)%nat with k in X2 by lia. congruence. }
    clear -Q. induction views as [|a vs IH]; cbn; constructor. apply IH. intros k; apply (Q (S k)). destruct vs as [|b vs]; cbn; constructor. apply Rle_ge, (Q 0%nat); auto.
Qed.
