(** The log of a refinement that may fail. *)
From Coq Require Import Ascii String List Arith ZArith Reals Bool Lia Lra.
From Verif Require Import Base RSum GaussModel GaussSpec LsModel LsSpec LsProof CtlProof LsStep LsRun ParserModel DataModel DataSpec DataProof
  FmtModel FmtSpec FmtProof SaveModel OutModel OutSpec OutProof OutPhase FitTextModel FitTextSpec FitTextProof FitTextFinal RunLogModel RunLogSpec RunLogProof RunLogFinal.
Import ListNotations.
Local Open Scope R_scope.

Definition final_title : text := chars "================================ FINAL ==================================".
Definition end_rule : text := chars "=========================================================================".
(** what follows the iterations *)
Definition closing lg o (r : outcome unit) (tl : list text) : Prop :=
  (r = Ok tt /\ exists v final, state_says lg o v final /\ tl = final_lines final) \/ (r <> Ok tt /\ (tl = [] \/ tl = [[]; final_title])).
Lemma no_text : Ok (@nil ascii) = Ok (concat (map ln [])). Proof. reflexivity. Qed.
Lemma titles_one : Forall one_line [[]; final_title].
Proof. apply Forall_cons. intros []. apply Forall_cons. apply one_chars; reflexivity. apply Forall_nil. Qed.
Lemma final_one final : Forall one_line final -> Forall one_line (final_lines final).
Proof.
  intros F. unfold final_lines. apply Forall_app; split. apply titles_one. apply Forall_app; split; auto.
  apply Forall_cons. intros []. apply Forall_cons. apply one_chars; reflexivity. apply Forall_cons. intros []. apply Forall_nil.
Qed.
Lemma iter_one k ls : Forall one_line ls -> Forall one_line ([[]; iter_title k] ++ ls).
Proof. intros F. apply Forall_cons. intros []. apply Forall_cons. apply iter_title_one. auto. Qed.

Lemma finish_theory o0 ds0 st o st2 o2 u : under_way o0 ds0 (st, o) -> mrqmin st (set_lambda o 0) = (st2, o2, Ok u) -> exists ds, f_theory o2 (f_p o2) = Ok ds.
Proof.
  intros [ds s I L SS FK BT]. cbn [fst snd] in *. set (o1 := set_lambda o 0).
  assert (I' : lsinv st o1 ds s) by (apply (inv_session st o); auto; repeat split).
  rewrite (mrqmin_nonneg st s o1) by (destruct I; auto; cbn; lra).
  pose proof (mrq_main_final st o1 ds s I' eq_refl) as M. intros E. rewrite E in M. destruct M as (MS & P & _). exists ds. destruct MS as (_ & _ & -> & _). rewrite P. destruct I'. auto.
Qed.
Lemma any_next lg toler o0 ds0 : log_ok_for lg o0 -> forall fuel c x running' c' x' r, c_iter c <> 0%nat -> under_way o0 ds0 x ->
  ls_refine toler fuel true c x = (running', c', x', r) ->
  exists vs blocks tl, refine_log lg toler fuel true c x = Ok (concat (map ln (iter_lines (S (c_iter c)) blocks ++ tl))) /\
    Forall one_line (iter_lines (S (c_iter c)) blocks ++ tl) /\ Forall2 (state_says lg o0) vs blocks /\ closing lg o0 r tl /\ c_iter c' = (c_iter c + length vs)%nat.
Proof.
  intros K. induction fuel as [|n IH]; intros c x running' c' x' r NZ U R.
  { injection R as <- <- <- <-. exists [], [], []. split; [reflexivity|]. split; [constructor|]. split; [constructor|]. split; [right; split; [discriminate|auto]|cbn; lia]. }
  unfold ls_refine in R. cbn [refine refine_log] in *. fold (ls_step toler true c x) in R. fold (ls_refine toler n) in R.
  pose proof (step_next toler c o0 ds0 x NZ U) as SN. destruct (ls_step toler true c x) as [[[r1 c1] x1] q] eqn:ST.
  unfold step_log. pose proof ST as ST0. unfold ls_step, refine_step in ST. destruct (Nat.eqb_spec (c_iter c) 0) as [|_]; [congruence|]. cbn [negb andb] in *. cbv iota in ST. rewrite nil_cat.
  destruct (need_more c).
  - unfold iterate_log. rewrite (first_none lg _ x o0 ds0 U), nil_cat. destruct (ls_iterate toler x) as [x2 [b|e| |]] eqn:IT.
    + injection ST as <- <- <- <-. destruct SN as (S1 & _ & G & _). destruct (G eq_refl) as (_ & I1 & U1 & _). clear G.
      destruct (IH (bump c b) x2 running' c' x' r ltac:(lia) U1 R) as (vs & blocks & tl & E & O & F2 & CL & CI).
      destruct (state_in lg o0 (snd x2) (f_chisq (snd x2)) (negb (c_stag (bump c b) =? 0)%nat) S1 K) as (ls & ES & OS & SY).
      exists (mkView (f_p (snd x2)) (f_chisq (snd x2)) (negb (c_stag (bump c b) =? 0)%nat) :: vs), (ls :: blocks), tl.
      assert (EQ : iter_lines (S (c_iter c)) (ls :: blocks) ++ tl = ([[]; iter_title (c_iter (bump c b))] ++ ls) ++ iter_lines (S (c_iter (bump c b))) blocks ++ tl).
      { unfold iter_lines. cbn [length seq combine map concat fst snd]. cbn [c_iter bump]. rewrite <- !app_assoc. cbn [app]. reflexivity. }
      rewrite EQ, ES, E, iter_text_lines, !cat_lines. split; [reflexivity|]. split. apply Forall_app; split; auto. apply iter_one; auto.
      split. constructor; auto. split; auto. rewrite CI, I1. cbn [length]. lia.
    + injection ST as <- <- <- <-. injection R as <- <- <- <-. exists [], [], []. split; [reflexivity|]. split; [constructor|]. split; [constructor|]. split; [right; split; [discriminate|auto]|cbn; lia].
    + injection ST as <- <- <- <-. injection R as <- <- <- <-. exists [], [], []. split; [reflexivity|]. split; [constructor|]. split; [constructor|]. split; [right; split; [discriminate|auto]|cbn; lia].
    + injection ST as <- <- <- <-. injection R as <- <- <- <-. exists [], [], []. split; [reflexivity|]. split; [constructor|]. split; [constructor|]. split; [right; split; [discriminate|auto]|cbn; lia].
  - pose proof (ls_finish_spec o0 ds0 x U) as FS. destruct x as [st o]. unfold ls_finish in *. unfold finish_log. pose proof (finish_theory o0 ds0 st o) as FT. destruct (mrqmin st (set_lambda o 0)) as [[st2 o2] q2]. destruct q2 as [u|e| |]; cbn [obind] in *; try (destruct FS as (_ & _ & _ & _ & []); fail).
    + destruct FS as (S1 & _ & _ & _ & G). destruct (omap (fun _ => tt) (f_theory o2 (f_p o2))) as [w|e| |] eqn:OM; try contradiction.
      * injection ST as <- <- <- <-. injection R as <- <- <- <-. cbn [snd] in *. destruct (state_in lg o0 o2 (f_chisq o2) false S1 K) as (final & E & O & SY).
        exists [], [], (final_lines final). rewrite E, end_text_lines, final_text_lines, no_text, !cat_lines, app_nil_r. split; [reflexivity|]. split. apply final_one; auto.
        split. constructor. split. left. split; auto. eauto. cbn; lia.
      * exfalso. destruct (FT _ _ _ U eq_refl) as [ds T]. rewrite T in OM. discriminate OM.
    + injection ST as <- <- <- <-. injection R as <- <- <- <-. exists [], [], [[]; final_title]. rewrite final_text_lines, no_text, !cat_lines. split; [reflexivity|]. split. apply titles_one. split; [constructor|]. split; [right; split; [discriminate|auto]|cbn; lia].
Qed.

(** the first step, when it fails *)
Lemma any_first lg toler running c st o r1 c1 x1 q : fresh running c -> log_ok_for lg o -> ls_step toler running c (st, o) = (r1, c1, x1, q) -> q <> Ok false ->
  q <> Ok true /\ c_iter c1 = 0%nat /\
  exists head vs blocks, step_log lg toler running c (st, o) = Ok (concat (map ln (head ++ iter_lines 0 blocks))) /\ Forall one_line (head ++ iter_lines 0 blocks) /\
    start_says lg head /\ Forall2 (state_says lg o) vs blocks /\ (length vs <= 1)%nat.
Proof.
  intros F K ST NF. pose proof (step_fresh toler running c st o F) as SF. rewrite ST in SF. destruct SF as (_ & _ & _ & NT & _). split; auto.
  unfold step_log. unfold ls_step, refine_step in ST. rewrite (fresh_false _ _ F) in *.
  pose proof (ls_setup_spec st o) as SS. destruct (ls_setup (st, o)) as [[st1 o1] q1]. cbn [fst snd] in SS. destruct SS as (-> & SE & P & LM & D & RS).
  destruct (start_ok lg o K) as (head & EH & OH & HS). rewrite EH.
  assert (NONE : exists vs blocks, cat (Ok (concat (map ln head))) (Ok []) = Ok (concat (map ln (head ++ iter_lines 0 blocks))) /\ Forall one_line (head ++ iter_lines 0 blocks) /\ Forall2 (state_says lg o) vs blocks /\ (length vs <= 1)%nat).
  { exists [], []. rewrite no_text, cat_lines. split; [reflexivity|]. split. apply Forall_app; split; auto. apply Forall_nil. split. constructor. cbn; lia. }
  destruct q1 as [[]|e| |]; try (injection ST as <- <- <- <-; split; [reflexivity|]; destruct NONE as (vs & blocks & A & B & C & E); exists head, vs, blocks; auto; fail).
  change (need_more (mkC 0 0)) with true in *. cbv iota in ST. unfold iterate_log, first_text.
  pose proof (mrq_init_fresh st o1 ltac:(rewrite LM; lra) (D eq_refl)) as MI.
  destruct (Rlt_dec (f_alambda o1) 0) as [_|N]; [|rewrite LM in N; lra].
  destruct (ls_iterate toler (st, o1)) as [x2 [b|e| |]] eqn:IT. { injection ST as <- <- <- <-. congruence. }
  all: injection ST as <- <- <- <-; split; [reflexivity|]; destruct (mrq_init st o1) as [[st2 o2] [u|e2| |]];
    try (rewrite nil_cat; destruct NONE as (vs & blocks & A & B & C & E); exists head, vs, blocks; auto; fail);
    destruct MI as (ds1 & s & _ & _ & MS & _); destruct (state_in lg o o2 (f_chisq o2) false (same_trans _ _ _ SE MS) K) as (b0 & E0 & O0 & SY0);
    exists head, [mkView (f_p o2) (f_chisq o2) false], [b0]; rewrite E0, iter_text_lines, no_text, !cat_lines, app_nil_r;
    (split; [unfold iter_lines; cbn [length seq combine map concat fst snd c_iter]; rewrite app_nil_r; reflexivity|]);
    (split; [apply Forall_app; split; auto; unfold iter_lines; cbn [length seq combine map concat fst snd]; rewrite app_nil_r; apply (iter_one 0); auto|]);
    (split; [auto|split; [repeat (constructor; auto)|cbn; lia]]).
Qed.

(** * searching *)
Definition no_rule (l : text) : Prop := l <> end_rule.
Lemma words_ne l w ws : words l = w :: ws -> w <> end_rule -> l <> end_rule.
Proof. intros W N E. subst l. change (words end_rule) with [end_rule] in W. congruence. Qed.
Lemma int_rule a r : int_text a ++ chars ":" <> "="%char :: r.
Proof.
  intros E. unfold int_text in E. destruct (dec_text_pd (Z.abs a) ltac:(lia)) as (d & Q & F & _ & PL). rewrite Q in E. destruct (a <? 0)%Z; [discriminate E|].
  destruct d as [|k d]. { destruct (plain_ne _ PL); auto. } inversion F; subst. cbn [print_digits map app] in E. injection E as E _. do 10 (destruct k as [|k]; [discriminate E|]). lia.
Qed.
Lemma state_rule lg o v ls : state_says lg o v ls -> ~ In end_rule ls.
Proof.
  intros (rows & l & -> & P & w1 & w2 & w3 & W & _). pose proof (rows_first _ _ _ _ P) as RF. rewrite Forall_forall in RF.
  intros [I|[I|I]]; try discriminate I. apply in_app_iff in I as [I|[I|[I|[]]]]; try discriminate I.
  - destruct (RF _ I) as (a & ws & E). change (words end_rule) with [end_rule] in E. injection E as E _. symmetry in E. exact (int_rule _ _ E).
  - subst l. change (words end_rule) with [end_rule] in W. discriminate W.
Qed.
Lemma blocks_words lg o vs blocks : Forall2 (state_says lg o) vs blocks -> forall k,
  iter_words (iter_lines k blocks) = map (fun k => int_text (Z.of_nat k)) (seq k (length vs)) /\ ~ In end_rule (iter_lines k blocks).
Proof.
  induction 1 as [|u b vs bs H F2 IH]; intros k. split; [reflexivity|intros []]. destruct (IH (S k)) as [I1 I2]. destruct (state_quiet _ _ _ _ H) as [Q1 _]. destruct (title_words k) as [T1 _].
  replace (iter_lines k (b :: bs)) with ([[]] ++ [iter_title k] ++ b ++ iter_lines (S k) bs) by reflexivity. split.
  - rewrite !iter_app, I1, Q1, T1. reflexivity.
  - rewrite !in_app_iff. intros [[I|[]]|[[I|[]]|[I|I]]]; try discriminate I; auto. exact (state_rule _ _ _ _ H I).
Qed.
Lemma start_rule lg ls : start_says lg ls -> ~ In end_rule ls.
Proof.
  intros (hs & -> & F) I. apply in_app_iff in I as [[I|[I|[I|[]]]]|I]; try discriminate I. revert F. generalize (lg_sets lg). intros sets F.
  induction F as [|s h sets hs H F IH]; [destruct I|]. destruct I as [->|I]; auto. unfold set_line in H. change (words end_rule) with [end_rule] in H. discriminate H.
Qed.
Lemma closing_words lg o r tl : closing lg o r tl -> iter_words tl = [] /\ (In end_rule tl <-> r = Ok tt).
Proof.
  intros [(-> & v & final & S & ->)|(N & [-> | ->])].
  - destruct (state_quiet _ _ _ _ S) as [Q _]. unfold final_lines. rewrite !iter_app, Q. split. reflexivity. split; auto. intros _. rewrite !in_app_iff. right; right. right; left. reflexivity.
  - split; auto. split. intros []. intros; contradiction.
  - split; auto. split; [|intros; contradiction]. intros [I|[I|[]]]; discriminate I.
Qed.

Theorem log_any lg toler fuel running c st o running' c' x' r : fresh running c -> log_ok_for lg o -> (0 < fuel)%nat ->
  ls_refine toler fuel running c (st, o) = (running', c', x', r) ->
  exists t m, refine_log lg toler fuel running c (st, o) = Ok t /\ iter_words (lines t) = map (fun k => int_text (Z.of_nat k)) (seq 0 m) /\
    (m = S (c_iter c') \/ (m = 0%nat /\ c_iter c' = 0%nat)) /\
    (In (chars "=========================================================================") (lines t) <-> r = Ok tt).
Proof.
  intros F K L R. destruct fuel as [|n]; [lia|]. unfold ls_refine in R. cbn [refine refine_log] in *. fold (ls_step toler running c (st, o)) in R. fold (ls_refine toler n) in R.
  destruct (ls_step toler running c (st, o)) as [[[r1 c1] x1] q] eqn:ST.
  assert (CASE : q = Ok false \/ q <> Ok false) by (destruct q as [[|]|e| |]; auto; right; discriminate). destruct CASE as [->|NF].
  - destruct (log_first lg toler running c st o c1 x1 r1 F K ST) as (ds0 & head & b0 & b1 & TH & U & -> & I1 & EL & OL & HS & SY0 & SY1 & LE).
    destruct (any_next lg toler o ds0 K n c1 x1 running' c' x' r ltac:(lia) U R) as (vs & blocks & tl & E & O & F2 & CL & CI).
    rewrite EL, E, cat_lines. eexists. exists (S (c_iter c')). split; [reflexivity|]. rewrite lines_concat by (apply Forall_app; split; auto).
    assert (F0 : Forall2 (state_says lg o) [mkView (f_p o) (chisq_of ds0) false; mkView (f_p (snd x1)) (f_chisq (snd x1)) false] [b0; b1]) by (repeat (constructor; auto)).
    destruct (blocks_words _ _ _ _ F0 0%nat) as [A1 A2]. destruct (blocks_words _ _ _ _ F2 (S (c_iter c1))) as [B1 B2]. destruct (closing_words _ _ _ _ CL) as [C1 C2]. destruct (start_quiet _ _ HS) as [H1 _]. pose proof (start_rule _ _ HS) as H2.
    split; [|split; [auto|]].
    + rewrite !iter_app, H1, A1, B1, C1, app_nil_r. rewrite CI, I1. reflexivity.
    + fold end_rule. rewrite !in_app_iff. tauto.
  - destruct (any_first lg toler running c st o r1 c1 x1 q F K ST NF) as (NT & C1 & head & vs & blocks & EL & OL & HS & F2 & LV).
    assert (Q : match q with Ok false => refine_log lg toler n r1 c1 x1 | _ => Ok [] end = Ok [] /\ c' = c1 /\ r <> Ok tt).
    { destruct q as [[|]|e| |]; try congruence; injection R as <- <- <- <-; repeat split; auto; discriminate. }
    destruct Q as (Q & -> & NR). exists (concat (map ln (head ++ iter_lines 0 blocks))), (length vs). split.
    { rewrite EL. destruct q as [[|]|e| |]; try congruence; rewrite no_text, cat_lines, app_nil_r; reflexivity. }
    rewrite lines_concat by auto. destruct (blocks_words _ _ _ _ F2 0%nat) as [A1 A2]. destruct (start_quiet _ _ HS) as [H1 _]. pose proof (start_rule _ _ HS) as H2.
    split; [|split].
    + rewrite iter_app, H1, A1. reflexivity.
    + destruct (length vs) as [|[|k]]; auto; lia.
    + fold end_rule. rewrite in_app_iff. tauto.
Qed.
