(** Which exceptions the engine calls can throw. *)
From Coq Require Import List Arith ZArith Reals Bool Ascii Lia Lra.
From Verif Require Import Base.
From Verif Require Import ParamModel ParserModel ParserLex MatrixModel ConModel.
From Verif Require MetricModel MetricProof MathModel SphereModel PdfModel GaussModel LsModel SessModel StruModel DataModel SaveModel ReportModel BondModel ScatModel.
From Verif Require Import BindModel BindSpec.
Import ListNotations.

Definition errs {A} (P : err -> Prop) (o : outcome A) : Prop := match o with Err e => P e | _ => True end.
Lemma errs_bind {A B} P (o : outcome A) (f : A -> outcome B) : errs P o -> (forall a, o = Ok a -> errs P (f a)) -> errs P (obind o f).
Proof. destruct o; cbn; auto. Qed.
Lemma errs_map {A B} P (o : outcome A) (f : A -> B) : errs P o -> errs P (omap f o).
Proof. destruct o; cbn; auto. Qed.
Lemma errs_weak {A} (P Q : err -> Prop) (o : outcome A) : (forall e, P e -> Q e) -> errs P o -> errs Q o.
Proof. destruct o; cbn; auto. Qed.
Lemma errs_fold {S A} P (f : S -> A -> outcome S) l : forall s, (forall s a, In a l -> errs P (f s a)) -> errs P (ofold f l s).
Proof. induction l; cbn; intros; auto. apply errs_bind; auto. Qed.
Lemma errs_rd {A} P (l : list A) i : errs P (rd l i). Proof. unfold rd. destruct (nth_error l i); cbn; auto. Qed.
Lemma errs_wr {A} P (l : list A) i x : errs P (wr l i x). Proof. unfold wr. destruct (i <? length l)%nat; cbn; auto. Qed.
Lemma errs_rdz {A} P (l : list A) i : errs P (PdfModel.rdz l i). Proof. unfold PdfModel.rdz. destruct (i <? 0)%Z; cbn; auto. apply errs_rd. Qed.
Lemma errs_wrz {A} P (l : list A) i x : errs P (PdfModel.wrz l i x). Proof. unfold PdfModel.wrz. destruct (i <? 0)%Z; cbn; auto. apply errs_wr. Qed.
Lemma errs_int P z : errs P (PdfModel.to_int z). Proof. unfold PdfModel.to_int. destruct (_ && _); cbn; auto. Qed.
Lemma errs_nint P x d : errs P (PdfModel.nint_div x d). Proof. unfold PdfModel.nint_div. destruct (Req_EM_T d 0); cbn; auto. apply errs_int. Qed.
Lemma errs_told {A} P (c : err -> option pyexc) (o : outcome A) : errs P o -> (forall e, P e -> c e = Some (class_of e)) -> told o (catching c o).
Proof. intros H K. destruct o; cbn in *; auto. rewrite (K _ H). reflexivity. Qed.

Ltac e1 := first
  [ exact I
  | apply errs_bind; [|intros ? ?]
  | apply errs_map
  | apply errs_rd | apply errs_wr | apply errs_rdz | apply errs_wrz | apply errs_int | apply errs_nint
  | apply errs_fold; intros ? ? ?
  | match goal with |- errs _ (match ?x with _ => _ end) => destruct x eqn:? end ].
Ltac et := repeat (cbv zeta; e1).

(** ** parser *)
Section P.
Context {T : Type} (N : numops T) (builtins : list (builtin T)).
Definition isparse (e : err) : Prop := e = ErrParse.
Lemma stack_errs s i : errs isparse (stack_get (T:=T) s i).
Proof. unfold stack_get. et. Qed.
Lemma dmap_errs s f d : errs isparse (dmap (T:=T) s f d).
Proof. unfold dmap. et. Qed.
Lemma dacc_errs s f d b : errs isparse (dacc (T:=T) s f d b).
Proof. unfold dacc. et. Qed.
Lemma getnum_base_errs s c r : errs isparse (getnum_base N builtins s c r).
Proof. unfold getnum_base. repeat (cbv zeta; first [reflexivity | apply stack_errs | apply dmap_errs | e1]). Qed.
Lemma getnum_errs s l : errs isparse (getnum N builtins s l).
Proof.
  induction l as [|c l IH]; cbn [getnum]. reflexivity.
  repeat (first [reflexivity | apply IH | apply getnum_base_errs | apply dmap_errs | e1]).
Qed.
Lemma binop_errs s op v1 d1 v2 d2 : errs isparse (binop N s op v1 d1 v2 d2).
Proof. unfold binop. repeat (cbv zeta; first [reflexivity | apply dacc_errs | e1]). Qed.
Lemma compute_loop_errs fuel : forall p s pre suf, errs isparse (compute_loop N builtins fuel p s pre suf).
Proof.
  induction fuel as [|f IH]; intros; cbn [compute_loop]. exact I.
  repeat (first [reflexivity | apply IH | apply getnum_errs | apply binop_errs | e1]).
Qed.
Lemma bracket_errs fuel : forall s l, errs isparse (bracket_loop N builtins fuel s l).
Proof.
  induction fuel as [|f IH]; intros; cbn [bracket_loop]. exact I.
  unfold compute. repeat (first [reflexivity | apply IH | apply compute_loop_errs | e1]).
Qed.
Lemma flags_errs P (t : ptab T) u : errs P (used_flags t u).
Proof. induction u; cbn [used_flags]; et. auto. Qed.

(** every '@' of the text under substitution is one of the formula *)
Definition tails (line expr : text) : Prop := forall pre post, expr = pre ++ "@"%char :: post -> exists pre', line = pre' ++ "@"%char :: post.
Lemma split_none_app (c : ascii) a b : ~ In c a -> forall pre post, a ++ b = pre ++ c :: post -> exists q, pre = a ++ q /\ b = q ++ c :: post.
Proof.
  induction a as [|x a IH]; cbn; intros NI pre post E. exists pre; auto.
  destruct pre as [|y pre]; cbn in E; injection E as E1 E2. subst; tauto.
  destruct (IH ltac:(tauto) pre post E2) as (q & -> & ->). exists q. subst. auto.
Qed.
Lemma scan_suffix l n r : scan_int l = Some (n, r) -> exists p, l = p ++ r.
Proof.
  unfold scan_int. intros H.
  assert (W : exists p, l = p ++ skipws l).
  { clear. induction l as [|c l [p IH]]; cbn. exists []; auto. destruct (is_space c). exists (c :: p). cbn. congruence. exists []; auto. }
  destruct W as [w W]. remember (skipws l) as k eqn:Ek. clear Ek.
  assert (G : exists p, k = p ++ snd (sign_split k)).
  { unfold sign_split. destruct k as [|c k']. exists []; auto. destruct (Ascii.eqb c "-"); [exists [c]; auto|]. destruct (Ascii.eqb c "+"); [exists [c]; auto|exists []; auto]. }
  destruct G as [g G]. destruct (sign_split k) as [neg l2]. cbn in G. destruct (span_digits l2) as [d q] eqn:E. apply span_digits_spec in E as (E & _).
  assert (q = r). { destruct d; [discriminate|]. destruct neg, (_ && _); congruence. }
  subst. exists (w ++ g ++ d). rewrite <- !app_assoc. reflexivity.
Qed.
Local Transparent stackvar.
Lemma stackvar_no_at i : ~ In "@"%char (stackvar i).
Proof.
  unfold stackvar. intros [H|H]; [discriminate|].
  assert (D : forall f n acc, ~ In "@"%char acc -> ~ In "@"%char (dec_digits f n acc)).
  { induction f as [|f IH]; intros n acc NA; cbn [dec_digits]; auto.
    assert (X : ~ In "@"%char (digit_of (n mod 10) :: acc)).
    { intros [K|K]; [|tauto]. assert (0 <= n mod 10 < 10)%Z as B by (apply Z.mod_pos_bound; lia).
      assert (J : (n mod 10 = 0 \/ n mod 10 = 1 \/ n mod 10 = 2 \/ n mod 10 = 3 \/ n mod 10 = 4 \/ n mod 10 = 5 \/ n mod 10 = 6 \/ n mod 10 = 7 \/ n mod 10 = 8 \/ n mod 10 = 9)%Z) by lia.
      repeat (destruct J as [J|J]; [rewrite J in K; discriminate|]). rewrite J in K; discriminate. }
    destruct (n <? 10)%Z; auto. }
  exact (D (S i) (Z.of_nat i) [] (fun x => x) H).
Qed.
Lemma tails_next line pre post n rest i : split_at "@" (pre ++ "@"%char :: post) = Some (pre, post) -> ~ In "@"%char pre -> tails line (pre ++ "@"%char :: post) -> scan_int post = Some (n, rest) ->
  tails line (pre ++ stackvar i ++ rest).
Proof.
  intros _ NP TL SC a b E. apply split_none_app in E as (q & -> & E); auto. apply split_none_app in E as (q' & -> & E); [|apply stackvar_no_at].
  apply scan_suffix in SC as (p & ->). subst rest. apply (TL (pre ++ "@"%char :: p ++ q')). rewrite <- !app_assoc. cbn. rewrite <- !app_assoc. reflexivity.
Qed.
Local Opaque stackvar.
Definition constr_or_parse (line : text) (t : ptab T) (e : err) : Prop :=
  e = ErrParse \/ (e = ErrConstraint /\ exists n, mentions line n /\ parfind t n = None).
Lemma subst_errs line (t : ptab T) : forall fuel expr used vs, tails line expr -> errs (constr_or_parse line t) (subst_loop fuel t expr used vs).
Proof.
  induction fuel as [|f IH]; intros expr used vs TL; cbn [subst_loop]. exact I.
  destruct (split_at "@" expr) as [[pre post]|] eqn:E; [|exact I]. pose proof E as E0.
  apply split_at_spec in E as [-> NP].
  destruct (scan_int post) as [[n rest]|] eqn:SC; [|left; reflexivity].
  destruct (parfind t n) as [k|] eqn:PF.
  - assert (K : forall i, tails line (pre ++ stackvar i ++ rest)) by (intros; eapply tails_next; eauto).
    destruct (find_used k used). apply IH, K. destruct (nth_error (pval t) k); [|exact I]. apply IH, K.
  - right. split; auto. exists n. split; auto. destruct (TL pre post eq_refl) as [pre' ->]. exists pre', post, rest. auto.
Qed.
Lemma parse_errs (t : ptab T) line : errs (constr_or_parse line t) (parse N builtins t line).
Proof.
  unfold parse. destruct (split_at "#" line); [left; reflexivity|]. apply errs_bind.
  apply subst_errs. intros pre post E. exists pre. auto.
  intros [[ex u] vs] _. apply errs_bind. apply flags_errs. intros fl _. cbv zeta. apply errs_map.
  apply (errs_weak isparse). intros e ->; left; reflexivity. apply bracket_errs.
Qed.

(** ** constraints *)
Lemma mx_get_errs P (m : matrix T) i j : errs P (mx_get m i j).
Proof. unfold mx_get. et. Qed.
Lemma mx_set_errs P (m : matrix T) i j x : errs P (mx_set m i j x).
Proof. unfold mx_set. et. Qed.
Lemma store_errs P (t : ptab T) i : forall used d iu r m, errs P (store_derivs t i used d iu r m).
Proof. induction used; intros; cbn [store_derivs]; repeat (first [apply IHused | apply mx_set_errs | e1]). Qed.
Definition fill_err (s : cstate T) (e : err) : Prop :=
  e = ErrParse \/ (e = ErrConstraint /\ exists c, In c (cons_ s) /\ ~ refs_set (ctab s) c).
Lemma getpar_none (t : ptab T) n : parfind t n = None -> getpar t n = Err ErrUnassigned.
Proof. unfold getpar. intros ->. reflexivity. Qed.
Lemma set_ref_in i b (l : list centry) c : In c (set_ref i b l) -> exists c', In c' l /\ cform c' = cform c /\ cidef c' = cidef c.
Proof.
  unfold set_ref. destruct (nth_error l i) as [e|] eqn:E; [|exists c; auto]. intros H.
  apply In_nth_error in H as [k H].
  assert (U : nth_error (upd i (mkCon (cvar e) (cform e) (cidef e) (ctype e) b) l) k = if Nat.eqb i k then (match nth_error l k with Some _ => Some (mkCon (cvar e) (cform e) (cidef e) (ctype e) b) | None => None end) else nth_error l k).
  { clear. revert i k. induction l; intros [|i] [|k]; cbn; auto. destruct (Nat.eqb i k); reflexivity. }
  rewrite U in H. destruct (Nat.eqb_spec i k) as [->|].
  rewrite E in H. injection H as <-. exists e. split; auto. eapply nth_error_In; eauto.
  exists c. split; auto. eapply nth_error_In; eauto.
Qed.
Lemma fill_one_errs (s : cstate T) i : errs (fill_err s) (snd (fill_one N builtins s i)) /\ ctab (fst (fill_one N builtins s i)) = ctab s /\
  (forall c, In c (cons_ (fst (fill_one N builtins s i))) -> exists c', In c' (cons_ s) /\ cform c' = cform c /\ cidef c' = cidef c).
Proof.
  assert (SR : forall j b c, In c (set_ref j b (cons_ s)) -> exists c', In c' (cons_ s) /\ cform c' = cform c /\ cidef c' = cidef c) by (intros; eapply set_ref_in; eauto).
  unfold fill_one. destruct (nth_error (cons_ s) i) as [e|] eqn:E; [|cbn; repeat split; eauto].
  apply nth_error_In in E. cbv zeta. destruct (cform e) as [|ch fm] eqn:F.
  - destruct (parfind (ctab s) (cidef e)) as [k|] eqn:PF.
    + destruct (nth_error (pfree (ctab s)) k); [|cbn; repeat split; eauto]. destruct (nth_error (pval (ctab s)) k); [|cbn; repeat split; eauto].
      destruct (ctype e); try (destruct (mx_set _ _ _ _)); cbn; repeat split; eauto.
    + cbn. repeat split; eauto. right. split; auto. exists e. split; auto. unfold refs_set. rewrite F. intros H. apply H. apply getpar_none; auto.
  - pose proof (parse_errs (ctab s) (ch :: fm)) as PE. destruct (parse N builtins (ctab s) (ch :: fm)) as [[[v d] u]|x| |]; cbn in PE.
    + pose proof (store_errs (fun _ => False) (ctab s) i u d 0 false (cdvdp s)) as SE. destruct (store_derivs _ _ _ _ _ _ _) as [[r m]|x| |]; cbn in *; repeat split; eauto. destruct SE.
    + cbn. repeat split; eauto. destruct PE as [->|[-> (n & M & PN)]]; [left; auto|]. right. split; auto. exists e. split; auto. unfold refs_set. rewrite F. intros H. apply (H n M). apply getpar_none; auto.
    + cbn; repeat split; eauto.
    + cbn; repeat split; eauto.
Qed.
Lemma refs_same (t : ptab T) c c' : cform c' = cform c -> cidef c' = cidef c -> refs_set t c' -> refs_set t c.
Proof. unfold refs_set. intros -> ->. auto. Qed.
Lemma fill_loop_errs : forall n (s : cstate T) i, errs (fill_err s) (snd (fill_loop N builtins s n i)).
Proof.
  induction n as [|n IH]; intros s i; cbn [fill_loop]. exact I.
  destruct (fill_one_errs s i) as (E1 & E2 & E3). destruct (fill_one N builtins s i) as [s' r]. cbn [fst snd] in *.
  destruct r; cbn [snd]; auto. eapply errs_weak; [|apply IH]. intros e [->|[-> (c & I1 & NR)]]; [left; auto|]. right. split; auto.
  destruct (E3 c I1) as (c' & I2 & F1 & F2). exists c'. split; auto. intros RS. apply NR. rewrite E2. eapply refs_same; eauto.
Qed.
Lemma fill_errs (s : cstate T) : errs (fill_err s) (snd (fill_variables N builtins s)).
Proof.
  unfold fill_variables. assert (H : errs (fill_err s) (mx_resize (n_zero N) (cdvdp s) (length (cons_ s)) (length (pval (ctab s))))).
  { unfold mx_resize. repeat (first [apply mx_get_errs | e1]). }
  destruct (mx_resize _ _ _ _); cbn [snd]; auto. apply (fill_loop_errs _ (mkCst _ _ _ _)).
Qed.
End P.
