(** Concrete cases for the parser theorems. *)
From Coq Require Import List ZArith Ascii String Reals Lra Lia.
From Verif Require Import Base ParamModel ParamProof ParserModel ParserLex ParserSafe ParserSpec ParserGram ParserProof
  ParserDeriv MathModel MathSpec MathProof.
Import ListNotations.

Lemma parse_value {T : Type} (N : numops T) (builtins : list (builtin T)) (t : ptab T) line e v :
    wf t -> gexp line e -> (Z.of_nat (List.length line) <= 2147483647)%Z ->
    ev N builtins (env_of t) e = Some v ->
    exists d used, parse N builtins t line = Ok (v, d, used).
Proof.
  intros W G L M. destruct gram_nohash as (_ & _ & NH).
  destruct (parse_gram _ _ t line e v W G (NH _ _ G) L M) as (d & used & fl & A & _). eauto.
Qed.

(** parameters 7 = 3 (free) and 3 = 1.5 (fixed) *)
Definition case_tab : ptab R :=
  prun ptab_init [PSet 7 3%R; PSet 3 (3/2)%R; PFix 3].
(** 2*(@7 - 1.5) + sqr(-@7)/@3 *)
Definition case_tree : fexp :=
  EBin "+" (EBin "*" (ELit 2 0) (EBin "-" (EPar 7) (ELit 15 (-1))))
           (EBin "/" (ECall (chars "sqr") (ENeg (EPar 7))) (EPar 3)).

Lemma case_ok :
  let line := chars "2*(@7 - 1.5) + sqr(-@7)/@3" in
  wf case_tab /\ gexp line case_tree /\ (Z.of_nat (List.length line) <= 2147483647)%Z /\
  meaning (env_of case_tab) case_tree = Some 9%R /\ smooth (env_of case_tab) case_tree /\
  nth_error (pfree case_tab) 0 = Some true /\ nth_error (pfree case_tab) 1 = Some false.
Proof.
  cbv zeta. split; [apply wf_run|].
  assert (Dg : forall c, is_digit c = true -> digits [c]) by (intros; constructor; auto).
  assert (B0 : blank []) by constructor.
  assert (B1 : blank [" "%char]) by (constructor; auto).
  assert (NN : forall d, digits d -> d <> [] -> numeral d (decval d) 0).
  { intros d H1 H2. rewrite <- (app_nil_r d) at 1. apply nu_int; auto. constructor. }
  assert (P7 : forall w w', blank w -> blank w' -> gfac (w ++ "@"%char :: ["7"%char] ++ w') (EPar 7)).
  { intros. apply (g_par w ["7"%char] w'); auto; [discriminate|]. vm_compute. discriminate. }
  split.
  { unfold case_tree.
    change (gexp (chars "2*(@7 - 1.5) " ++ "+"%char :: chars " sqr(-@7)/@3")
      (EBin "+" (EBin "*" (ELit 2 0) (EBin "-" (EPar 7) (ELit 15 (-1))))
           (EBin "/" (ECall (chars "sqr") (ENeg (EPar 7))) (EPar 3)))).
    apply g_add; [| auto |].
    - apply g_term. change (chars "2*(@7 - 1.5) ") with (["2"%char] ++ "*"%char :: chars "(@7 - 1.5) ").
      apply g_mul; [| auto |].
      + apply g_fac. apply (g_num [] ["2"%char] 2 0 []); auto. apply (NN ["2"%char]); auto; discriminate.
      + apply (g_brk [] (chars "@7 - 1.5") _ [" "%char]); auto.
        apply (g_add (chars "@7 ") (EPar 7) "-" (chars " 1.5") (ELit 15 (-1))); [| auto |].
        * apply g_term, g_fac. apply (P7 [] [" "%char]); auto.
        * apply g_fac. apply (g_num [" "%char] (chars "1.5") 15 (-1) []); auto.
          apply (nu_dot ["1"%char] ["5"%char] [] 0); auto; [discriminate|constructor].
    - apply (g_mul (chars " sqr(-@7)") _ "/" (chars "@3") (EPar 3)); [| auto |].
      + apply g_fac. apply (g_call [" "%char] (chars "sqr") (chars "-@7") _ []); auto.
        { split; [discriminate|repeat (apply Forall_cons; [cbn; tauto|]); constructor]. }
        apply g_term, g_fac. apply (g_neg [] (chars "@7")); auto. apply (P7 [] []); auto.
      + apply (g_par [] ["3"%char] []); auto; [discriminate|]. vm_compute; discriminate. }
  split; [vm_compute; discriminate|].
  split.
  { cbn [case_tree meaning lookup fun_spec]. unfold decimal.
    change (env_of case_tab 7) with (Some 3%R). change (env_of case_tab 3) with (Some (3/2)%R).
    change (lookup (chars "sqr") fun_spec) with (Some (fun x : R => (x ^ 2)%R, fun _ : R => True)).
    replace (powerRZ 10 (-1)) with (/ 10)%R by (simpl; lra).
    replace (powerRZ 10 0) with 1%R by reflexivity. cbn. f_equal. field. }
  split; [|split; reflexivity].
  cbn. repeat split; auto; try discriminate.
  - intros g dom x E. inversion E; subst; auto.
  - intros _ y E. inversion E. lra.
Qed.

Lemma safe_case : wf case_tab /\ nopd (chars ")(*--@7#)sin((1)-") /\
  parse (Rnum Rlit) Rbuiltins case_tab (chars ")(*--@7)sin((1)-") = Err ErrParse.
Proof.
  split; [apply wf_run|]. split; [|vm_compute; reflexivity].
  cbn. repeat split; intros; try discriminate; auto.
Qed.

Lemma glue_ub : exists line, parse (Rnum Rlit) Rbuiltins ptab_init line = UB.
Proof. exists (chars "(1)2"). cbn. reflexivity. Qed.

(** a grammatical formula never has a digit behind ')' *)
Lemma gram_nopd :
  (forall l e, gfac l e -> nopd l) /\ (forall l e, gterm l e -> nopd l) /\
  (forall l e, gexp l e -> nopd l).
Proof.
  assert (BL : forall w, blank w -> nopd w) by (intros; apply nopd_no, blank_notin; auto).
  assert (BN : forall w, blank w -> nds w).
  { intros w H. destruct H as [|c w Hc]; [exact I|]. apply nds_cons.
    destruct c as [[] [] [] [] [] [] [] []]; try reflexivity; discriminate. }
  assert (CO : forall c l, c <> ")"%char -> nopd l -> nopd (c :: l)) by (intros; split; [congruence|auto]).
  apply g_mutind; intros; auto.
  - apply nopd_no. rewrite !in_app_iff. intros [K|[K|K]].
    + revert K; apply blank_notin; auto.
    + pose proof (numeral_chars _ _ _ _ n K) as Q. intuition discriminate.
    + revert K; apply blank_notin; auto.
  - apply nopd_no. rewrite in_app_iff. cbn [In]. rewrite in_app_iff. intros [K|[K|[K|K]]].
    + revert K; apply blank_notin; auto.
    + discriminate.
    + unfold digits in d0. rewrite Forall_forall in d0. apply d0 in K. discriminate.
    + revert K; apply blank_notin; auto.
  - apply nopd_join; [apply nds_cons; reflexivity|]. split; auto. apply CO; auto; discriminate.
  - apply nopd_join; [apply nds_cons; reflexivity|]. split; auto. apply CO; auto; discriminate.
  - apply nopd_join; [apply nds_cons; reflexivity|]. split; auto. apply CO; [discriminate|].
    apply nopd_join; [apply nds_cons; reflexivity|]. split; auto. split; auto.
  - assert (~ In ")"%char f) by (apply fname_notin; auto).
    assert (nopd (f ++ "("%char :: l ++ ")"%char :: w')).
    { apply nopd_join; [apply nds_cons; reflexivity|]. split; [apply nopd_no; auto|]. apply CO; [discriminate|].
      apply nopd_join; [apply nds_cons; reflexivity|]. split; auto. split; auto. }
    apply nopd_join; [|auto]. destruct (fname_lower _ f0) as [NE FL]. destruct FL; [congruence|]. apply nds_cons.
    destruct x as [[] [] [] [] [] [] [] []]; try reflexivity; discriminate.
  - apply nopd_join; [apply nds_cons; destruct o; subst; reflexivity|]. split; auto. apply CO; auto. destruct o; subst; discriminate.
  - apply nopd_join; [apply nds_cons; destruct o; subst; reflexivity|]. split; auto. apply CO; auto. destruct o; subst; discriminate.
Qed.

Lemma glue_accepted :
  exists (line : text) (v : R) d used,
    (forall e, ~ gexp line e) /\ parse (Rnum Rlit) Rbuiltins ptab_init line = Ok (v, d, used).
Proof.
  exists (chars "(1)0"). eexists _, _, _. split; [|reflexivity].
  intros e G. apply gram_nopd in G. cbn in G. destruct G as (_ & _ & G & _). specialize (G eq_refl). discriminate.
Qed.

(** the blanks of the grammar and of the lines of data: isspace in the C locale *)
Lemma blank_chars (c : ascii) : is_space c = true <-> In c (map ascii_of_nat [32; 9; 10; 11; 12; 13])%nat.
Proof.
  split. destruct c as [[] [] [] [] [] [] [] []]; vm_compute; intros H; try discriminate H; tauto.
  intros H. repeat (destruct H as [<-|H]; [reflexivity|]). destruct H.
Qed.
