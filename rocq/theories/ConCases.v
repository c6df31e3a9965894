(** Concrete histories and the no-fixpar corollary for C03-C05. *)
From Coq Require Import List ZArith Ascii String Bool Lia Reals Lra.
From Verif Require Import Base ParamModel ParamProof ParserModel ParserLex ParserSafe ParserSpec
  ParserGram ParserProof ParserDeriv ParserUsed Util MatrixModel MatrixProof MathModel MathSpec MathProof ConModel ConSpec
  ConProof ConHist ConReal ParserCases.
Import ListNotations.
Local Open Scope Z_scope.

Section Gen.
Context {T : Type} (N : numops T) (builtins : list (builtin T)).

Definition all_free (t : ptab T) : Prop := Forall (fun b => b = true) (pfree t).

Lemma all_free_step (t : ptab T) o : all_free t -> (forall n, o <> PFix n) -> all_free (fst (pstep t o)).
Proof.
  unfold all_free. intros H NF. destruct o as [n v|n|n|n]; simpl; auto.
  - unfold setpar. destruct (parfind t n); simpl; auto. apply Forall_app; auto.
  - congruence || (exfalso; apply (NF n); auto).
  - unfold freepar, setflag. destruct (n =? -1); simpl.
    { apply Forall_forall. intros b I. apply in_map_iff in I as (x & E & _). auto. }
    destruct (parfind t n) as [k|]; simpl; auto. destruct (_ <? _)%nat; simpl; auto.
    apply Forall_forall. intros b I. apply in_upd in I as [->|(j & _ & E)]; auto.
    rewrite Forall_forall in H. apply H. eapply nth_error_In; eauto.
Qed.

Definition finv (s : cstate T) (l : list (nat * con)) : Prop :=
  wf (ctab s) /\ mwf (cdvdp s) /\ all_free (ctab s) /\ Forall (fun e => cref e = true) (cons_ s) /\
  exists cs, table s cs /\ (forall ac, In ac cs -> In ac l).

Lemma Forall_upd {A} (P : A -> Prop) l i x : Forall P l -> P x -> Forall P (upd i x l).
Proof.
  intros H Hx. rewrite Forall_forall in *. intros y I. apply in_upd in I as [->|(j & _ & E)]; auto.
  apply H. eapply nth_error_In; eauto.
Qed.

Lemma Forall2_upd {A B} (R : A -> B -> Prop) l l' i x y : Forall2 R l l' -> R x y -> Forall2 R (upd i x l) (upd i y l').
Proof. intros H Hx. revert i. induction H; intros [|i]; simpl; constructor; auto. Qed.

Lemma finv_constrain (s : cstate T) l a c f n ty : finv s l -> con_ok c -> holds (mkCon a f n ty true) (a, c) ->
  finv (constrain s a f n ty) (l ++ [(a, c)]).
Proof.
  intros (W & M & A & Fr & cs & (F & FO) & IN) OK Hh. unfold constrain.
  destruct (vfind (cons_ s) a) as [i|]; unfold finv; simpl; repeat (split; auto); try apply W.
  - apply Forall_upd; auto.
  - exists (upd i (a, c) cs). split. split. simpl. apply Forall2_upd; auto. apply Forall_upd; auto.
    intros ac I. apply in_upd in I as [->|(j & _ & E)]. apply in_app_iff; simpl; auto.
    apply in_app_iff. left. apply IN. eapply nth_error_In; eauto.
  - apply Forall_app; auto.
  - exists (cs ++ [(a, c)]). split. split. simpl. apply Forall2_app; auto. apply Forall_app; auto.
    intros ac I. apply in_app_iff in I as [I|I]; apply in_app_iff; auto.
Qed.

Lemma env_free (t : ptab T) n : wf t -> all_free t -> env_of t n <> None -> is_free t n = true.
Proof.
  intros (W1 & W2 & _) A H. unfold env_of, getpar, is_free in *. destruct (parfind t n) as [k|]; [|congruence].
  destruct (nth_error (pval t) k) eqn:E; [|congruence].
  assert (L : (k < List.length (pfree t))%nat). { assert (k < List.length (pval t))%nat by (apply nth_error_Some; congruence). lia. }
  destruct (nth_error (pfree t) k) as [b|] eqn:F. 2:{ apply nth_error_None in F. lia. }
  unfold all_free in A. rewrite Forall_forall in A. apply A. eapply nth_error_In; eauto.
Qed.

Lemma con_val_env env c v n : con_val N builtins env c = Some v -> In n (con_pars c) -> env n <> None.
Proof.
  destruct c as [line e|k m]; simpl. apply ev_def. intros H [->|[]] Q. rewrite Q in H. discriminate.
Qed.

Lemma finv_calc (s : cstate T) l : finv s l ->
  (forall a c, In (a, c) l -> con_pars c <> []) ->
  (forall a c, In (a, c) l -> con_val N builtins (env_of (ctab s)) c <> None) ->
  finv (fst (fill_variables N builtins s)) l.
Proof.
  intros (W & M & A & Fr & cs & F & IN) NE V.
  destruct (fill_variables_ok N builtins s cs W M F) as (s' & E & (T1 & T2 & T3 & T4 & T5 & T6 & T7 & _)).
  { intros a c I. apply V with a. auto. }
  rewrite E. simpl. unfold finv. rewrite T1. repeat (split; auto); try apply W.
  - apply Forall_forall. intros e I. apply In_nth_error in I as (j & Ej).
    destruct (Forall2_nth_l _ _ _ _ _ (proj1 T2) Ej) as ([a c] & Ec & _).
    rewrite (T4 j e a c Ej Ec). pose proof (IN _ (nth_error_In _ _ Ec)) as I2.
    apply existsb_exists. specialize (NE a c I2). destruct (con_pars c) as [|n ns] eqn:EP; [congruence|].
    exists n. split; [left; auto|]. apply env_free; auto.
    destruct (con_val N builtins (env_of (ctab s)) c) eqn:Ev. 2:{ exfalso. eapply V; eauto. }
    eapply con_val_env; eauto. rewrite EP. left; auto.
  - exists cs. auto.
Qed.

Lemma no_fix_clean mem (h : list (uop T)) :
  (forall n, ~ In (UPar (PFix n)) h) ->
  Forall (fun ac => con_ok (snd ac) /\ con_pars (snd ac) <> []) (ucons h) ->
  (forall h1 h2, h = h1 ++ UCalc :: h2 -> forall a c, In (a, c) (ucons h1) ->
     con_val N builtins (env_of (ctab (crun N builtins (cinit mem) (map to_cop h1)))) c <> None) ->
  all_clean N builtins (cinit mem) (map to_cop h).
Proof.
  intros NF FO V.
  assert (I : forall h1 h2, h = h1 ++ h2 -> finv (crun N builtins (cinit mem) (map to_cop h1)) (ucons h1)).
  { induction h1 as [|o h1 IH] using rev_ind; intros h2 E.
    - unfold finv. simpl. split. apply wf_init. split. repeat split. split. constructor. split. constructor.
      exists []. split. split; constructor. tauto.
    - rewrite <- app_assoc in E. simpl in E. specialize (IH _ E).
      assert (FO1 : Forall (fun ac => con_ok (snd ac) /\ con_pars (snd ac) <> []) (ucons (h1 ++ [o]))).
      { subst h. unfold ucons in *. rewrite flat_map_app in *. simpl in *. rewrite app_nil_r.
        apply Forall_app in FO as [F1 F2]. apply Forall_app in F2 as [F2 F3]. apply Forall_app; auto. }
      rewrite map_app. simpl map. rewrite crun_snoc. unfold ucons in *. rewrite flat_map_app in *. simpl flat_map in *.
      rewrite app_nil_r in *. apply Forall_app in FO1 as [F1 F2].
      destruct o as [p|a c|a v|].
      + rewrite app_nil_r. destruct IH as (W & M & A & Fr & R). unfold finv. simpl. repeat (split; auto); try (apply wf_step; auto).
        apply all_free_step; auto. intros n Q. subst p. apply (NF n). rewrite E. apply in_app_iff. right; left; auto.
      + inversion F2 as [|? ? [OK NE] _]; subst.
        destruct c as [line e|k n].
        * simpl. apply finv_constrain; auto. split; simpl; auto.
        * destruct k; simpl; apply finv_constrain; auto; split; simpl; auto.
      + rewrite app_nil_r. exact IH.
      + rewrite app_nil_r. apply finv_calc; auto.
        * intros a c Ia. rewrite Forall_forall in F1. apply (F1 _ Ia).
        * intros a c Ia. eapply V; eauto. }
  intros h1 o h2 E. apply map_eq_app in E as (g1 & g2 & E1 & E2 & E3). subst h1. destruct g2 as [|u g2]; [discriminate|].
  destruct (I g1 (u :: g2) E1) as (_ & _ & _ & Fr & _). simpl in E3. inversion E3. subst.
  rewrite Forall_forall in Fr. unfold clean. destruct (to_cop u); auto.
Qed.

(** finding: a constraint whose parameters were all fixed at the last
    calculation is not found again, so constraining the variable appends *)
Definition dup_hist (v1 v2 v3 : T) : list (cop T) :=
  [CPar (PSet 1 v1); CPar (PSet 2 v2); CPar (PSet 3 v3); CInt 0 1 1; CPar (PFix 1); CCalc;
   CInt 0 2 1; CPar (PFree 1); CCalc; CInt 0 3 1; CCalc].

Lemma dup_hist_value mem v1 v2 v3 :
  let s := crun N builtins (cinit mem) (dup_hist v1 v2 v3) in
  latest 0 (rev (dup_hist v1 v2 v3)) = Some (AInt 3 1) /\ cmem s 0%nat = v2 /\
  map cvar (cons_ s) = [0%nat; 0%nat] /\ snd (fill_variables N builtins s) = Ok tt /\
  cmem (fst (fill_variables N builtins s)) 0%nat = v2.
Proof. vm_compute. repeat split. Qed.

(** finding: replaced constraint leaves its derivative behind *)
Definition stale_hist (v1 v2 : T) : list (uop T) :=
  [UPar (PSet 1 v1); UPar (PSet 2 v2); UCon 0%nat (KPar KIdent 1); UCalc; UCon 0%nat (KPar KIdent 2); UCalc].

Lemma stale_hist_value mem v1 v2 :
  let s := crun N builtins (cinit mem) (map to_cop (stale_hist v1 v2)) in
  let s' := fst (fill_variables N builtins s) in
  snd (fill_variables N builtins s) = Ok tt /\ cons_ s' = [mkCon 0 [] 2 IDENT true] /\
  cmem s' 0%nat = v2 /\ parfind (ctab s') 1 = Some 0%nat /\ is_free (ctab s') 1 = true /\
  mx_get (cdvdp s') 0 0 = Ok (n_one N) /\ getpar (ctab s') 1 = Ok v1 /\ getpar (ctab s') 2 = Ok v2.
Proof. vm_compute. repeat split. Qed.

End Gen.

Lemma stale_refuted : exists (h : list (uop R)) mem s s' a c n k x0 dx,
  Forall (fun ac => con_ok (snd ac) /\ ids_ok (snd ac)) (ucons h) /\
  s = crun (Rnum Rlit) Rbuiltins (cinit mem) (map to_cop h) /\
  fill_variables (Rnum Rlit) Rbuiltins s = (s', Ok tt) /\ table s' [(a, c)] /\
  parfind (ctab s) n = Some k /\ is_free (ctab s) n = true /\ getpar (ctab s) n = Ok x0 /\
  mx_get (cdvdp s') 0 k = Ok dx /\ ~ derivable_pt_lim (con_fun (env_of (ctab s)) c n) x0 dx.
Proof.
  destruct (stale_hist_value (Rnum Rlit) Rbuiltins (fun _ => 0%R) 5%R 6%R) as (A & B & C & D & E & F & G & H).
  exists (stale_hist 5%R 6%R), (fun _ => 0%R).
  set (s := crun (Rnum Rlit) Rbuiltins (cinit (fun _ => 0%R)) (map to_cop (stale_hist 5%R 6%R))) in *.
  assert (TB : ctab (fst (fill_variables (Rnum Rlit) Rbuiltins s)) = ctab s).
  { apply (fill_variables_frame (Rnum Rlit) Rbuiltins s _ (snd (fill_variables (Rnum Rlit) Rbuiltins s))).
    apply surjective_pairing. subst s. vm_compute. repeat split. }
  exists s, (fst (fill_variables (Rnum Rlit) Rbuiltins s)), 0%nat, (KPar KIdent 2), 1, 0%nat, 5%R, 1%R.
  rewrite TB in *. split.
  { apply Forall_forall. intros ac [<-|[<-|[]]]; (split; [exact I|]); intros n [<-|[]]; lia. }
  split; auto. split. { rewrite <- A. apply surjective_pairing. }
  split. { unfold table. rewrite B. repeat constructor. }
  repeat (split; auto).
  intros Q. assert (Z0 : derivable_pt_lim (con_fun (env_of (ctab s)) (KPar KIdent 2) 1) 5 0%R).
  { eapply dl_ext; [intros y; symmetry; apply con_fun_const; simpl; lia|]. apply derivable_pt_lim_const. }
  pose proof (uniqueness_limite _ _ _ _ Q Z0). lra.
Qed.

Lemma last_wins_refuted : exists (h : list (cop R)) mem s s' a x,
  s = crun (Rnum Rlit) Rbuiltins (cinit mem) h /\
  fill_variables (Rnum Rlit) Rbuiltins s = (s', Ok tt) /\
  latest a (rev h) = Some x /\ ~ NoDup (map cvar (cons_ s)) /\
  ~ arg_val (Rnum Rlit) Rbuiltins (ctab s) x (cmem s' a).
Proof.
  destruct (dup_hist_value (Rnum Rlit) Rbuiltins (fun _ => 0%R) 1%R 2%R 3%R) as (A & B & C & D & E).
  exists (dup_hist 1%R 2%R 3%R), (fun _ => 0%R).
  set (s := crun (Rnum Rlit) Rbuiltins (cinit (fun _ => 0%R)) (dup_hist 1%R 2%R 3%R)) in *.
  exists s, (fst (fill_variables (Rnum Rlit) Rbuiltins s)), 0%nat, (AInt 3 1).
  split; auto. split. { rewrite <- D. apply surjective_pairing. } split; auto. split.
  - rewrite C. clear. intros Q. inversion Q as [|? ? H1 H2]. apply H1. left; auto.
  - rewrite E. intros (p & P & Q). simpl in Q.
    assert (getpar (ctab s) 3 = Ok 3%R) by (subst s; vm_compute; auto).
    assert (p = 3%R) by congruence. lra.
Qed.

(** a history with a formula, a fixed form, a fixed parameter and a calculation in between *)
Definition case_line : text := chars "2*(@7 - 1.5) + sqr(-@7)/@3".
Definition good_hist : list (uop R) :=
  [UPar (PSet 7 3%R); UCon 5%nat (KPar KSqr 7); UCalc; UPar (PSet 3 (3/2)%R); UPar (PFix 3);
   UCon 0%nat (KForm case_line case_tree)].

Lemma good_hist_ok :
  let s := crun (Rnum Rlit) Rbuiltins (cinit (fun _ => 0%R)) (map to_cop good_hist) in
  Forall (fun ac => con_ok (snd ac) /\ ids_ok (snd ac)) (ucons good_hist) /\
  NoDup (map fst (ucons good_hist)) /\ wf (ctab s) /\ mwf (cdvdp s) /\ table s (ucons good_hist) /\
  con_meaning (env_of (ctab s)) (KForm case_line case_tree) = Some 9%R /\
  con_meaning (env_of (ctab s)) (KPar KSqr 7) = Some 9%R /\
  con_smooth (env_of (ctab s)) (KForm case_line case_tree) /\
  is_free (ctab s) 7 = true /\ is_free (ctab s) 3 = false.
Proof.
  intros s. destruct case_ok as (A & B & C & D & E & F & G).
  assert (TB : ctab s = case_tab) by (subst s; vm_compute; reflexivity).
  assert (FO : Forall (fun ac => con_ok (snd ac) /\ ids_ok (snd ac)) (ucons good_hist)).
  { apply Forall_forall. intros ac [<-|[<-|[]]]; split; try exact I.
    - intros n [<-|[]]; lia.
    - split; [discriminate|]. split; auto.
    - intros n. unfold case_tree. simpl. intros [<-|[<-|[<-|[]]]]; lia. }
  assert (ND : NoDup (map fst (ucons good_hist))).
  { simpl. repeat constructor; simpl; intuition discriminate. }
  assert (OK : Forall (fun ac => con_ok (snd ac)) (ucons good_hist)).
  { eapply Forall_impl; [|exact FO]. simpl. tauto. }
  pose proof (dinv_run (Rnum Rlit) Rbuiltins (fun _ => 0%R) good_hist OK ND) as (W & M & TT & _). fold s in W, M, TT.
  split; auto. split; auto. split; auto. split; auto. split; auto.
  rewrite TB. split; auto. split.
  { unfold con_meaning. change (env_of case_tab 7) with (Some 3%R). cbv beta iota. f_equal. lra. }
  split; auto.
Qed.

Lemma free_hist_ok : let h := [UPar (PSet 7 3%R); UCon 5%nat (KPar KSqr 7); UCalc; UPar (PSet 3 (3/2)%R);
     UCon 5%nat (KPar KComp 3)] in
  (forall n, ~ In (UPar (PFix n)) h) /\
  Forall (fun ac => con_ok (snd ac) /\ con_pars (snd ac) <> []) (ucons h) /\
  (forall h1 h2, h = h1 ++ UCalc :: h2 -> forall a c, In (a, c) (ucons h1) ->
     con_val (Rnum Rlit) Rbuiltins (env_of (ctab (crun (Rnum Rlit) Rbuiltins (cinit (fun _ => 0%R)) (map to_cop h1)))) c <> None) /\
  latest 5%nat (rev (map to_cop h)) = Some (AInt 3 2).
Proof.
  cbv zeta. split. { intros n. simpl. intuition discriminate. }
  split. { repeat constructor; discriminate. }
  split; [|reflexivity].
  intros h1 h2 E a c Ia. destruct h1 as [|x1 [|x2 [|x3 h1]]]; try discriminate.
  - inversion E; subst. simpl in Ia. destruct Ia as [Ia|[]]. inversion Ia; subst. vm_compute. discriminate.
  - exfalso. inversion E as [[E1 E2 E3 E4]]. destruct h1 as [|x4 [|x5 h1]]; try discriminate.
    inversion E4. destruct h1; discriminate.
Qed.

Lemma fill_values {T : Type} :
  forall (N : numops T) (builtins : list (builtin T)) (s : cstate T) cs,
  wf (ctab s) -> mwf (cdvdp s) -> table s cs ->
  (forall a c, In (a, c) cs -> con_val N builtins (env_of (ctab s)) c <> None) ->
  exists s', fill_variables N builtins s = (s', Ok tt) /\ ctab s' = ctab s /\ table s' cs /\
    (forall a, last_con a cs = None -> cmem s' a = cmem s a) /\
    (forall a c, last_con a cs = Some c -> con_val N builtins (env_of (ctab s)) c = Some (cmem s' a)) /\
    (forall j e a c, nth_error (cons_ s') j = Some e -> nth_error cs j = Some (a, c) ->
       cref e = existsb (is_free (ctab s)) (con_pars c)).
Proof.
  intros N builtins s cs W M F V. destruct (fill_variables_ok N builtins s cs W M F V) as (s' & E & T1 & T2 & T3 & T4 & _).
  exists s'. split; auto. split; auto. split; auto. split; [|split; auto].
  - intros a L. rewrite T3, L. auto.
  - intros a c L. rewrite T3, L.
    assert (I : In (a, c) cs).
    { clear -L. induction cs as [|[b d] cs IH]; simpl in L. discriminate.
      destruct (last_con a cs). right; auto. destruct (Nat.eqb_spec b a); inversion L; subst. left; auto. }
    specialize (V a c I). destruct (con_val N builtins (env_of (ctab s)) c); congruence.
Qed.

Lemma fill_untouched {T : Type} :
  forall (N : numops T) (builtins : list (builtin T)) (s s' : cstate T) r,
  fill_variables N builtins s = (s', r) -> mwf (cdvdp s) ->
  forall a, (forall e, In e (cons_ s) -> cvar e <> a) -> cmem s' a = cmem s a.
Proof. intros N builtins s s' r H M. apply (fill_variables_frame N builtins s s' r H M). Qed.

Lemma undefined_case : wf (@ptab_init R) /\ gexp case_line case_tree /\ In 7 (pars case_tree) /\
  getpar (@ptab_init R) 7 = Err ErrUnassigned.
Proof. split. apply wf_init. split. apply case_ok. split. left; auto. auto. Qed.
