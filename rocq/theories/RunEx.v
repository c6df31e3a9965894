(** Refinements of sessions, and one that ends. *)
From Coq Require Import List Arith ZArith Reals Bool Lia Lra.
From Verif Require Import Base RSum ParamModel ParamProof ParserModel ParserSpec ParserDeriv MathModel MathSpec MathProof MatrixModel MatrixProof ConModel ConSpec ConProof ConHist ConReal GaussSpec MetricModel PdfModel PdfSpec PdfEx LayoutModel LayoutSpec LsModel LsSpec LsCases LinSpec TheoryModel TheorySpec TheoryMem ScaleSpec ScaleLin ScaleEx RunModel RunSpec RunFinal.
Import ListNotations.
Local Open Scope R_scope.
Notation Nm := (Rnum Rlit).

Theorem session_same addr fuel ph sets npar mem (h : list (uop R)) toler lfuel running c tx pdf0 ly0 o : let st := crun Nm Rbuiltins (cinit mem) (map to_cop h) in
  apart addr (atoms_in ph) (length sets) -> blocks_ok ph -> Forall (fun ac => con_ok (snd ac)) (ucons h) -> NoDup (map fst (ucons h)) -> solvable Nm Rbuiltins st (ucons h) -> fresh running c ->
  let O := theory_object addr Nm Rbuiltins fuel ph sets npar st o in
  exists w' b c' tx' o' r, ls_refine toler lfuel running c (tx, O) = (b, c', (tx', o'), r) /\
    world_refine addr Nm Rbuiltins fuel ph sets npar toler lfuel running c (tx, O, mkW st ly0 pdf0) = (b, c', (tx', o', w'), r) /\
    (r = Ok tt -> settled addr Nm Rbuiltins fuel ph sets (ucons h) st (w_st w') (w_pdf w') (f_p o')).
Proof.
  intros st AP BO CO ND V FR. destruct (dinv_run Nm Rbuiltins mem h CO ND) as (W & M & T & _). fold st in W, M, T. apply world_same; auto.
Qed.

(** the session of ScaleEx.v: the refinement ends, with the scale factor in memory *)
Lemma cons2 : ucons h2 = [(8%nat, KPar KIdent 1)]. Proof. reflexivity. Qed.
Lemma solv2 : solvable Nm Rbuiltins st2 (ucons h2).
Proof. rewrite st2_is, cons2. intros a c [E|[]]. inversion E; subst. cbn. discriminate. Qed.
Lemma con_ok2 : Forall (fun ac => con_ok (snd ac)) (ucons h2).
Proof. apply Forall_forall. intros [a c] I. destruct scales2 as [_ H]. apply (H a c I). Qed.
Lemma nodup2 : NoDup (map fst (ucons h2)). Proof. apply scales2. Qed.
Lemma run2 y o : exists f0, forall fuel, (f0 <= fuel)%nat -> forall toler lfuel tx ly0 pdf0, (101 <= lfuel)%nat ->
  let O := theory_object row2 Nm Rbuiltins fuel [half_empty] [set2 y] 34 st2 o in
  exists c' tx' o' w' q cmin, world_refine row2 Nm Rbuiltins fuel [half_empty] [set2 y] 34 toler lfuel false c_new (tx, O, mkW st2 ly0 pdf0) = (false, c', (tx', o', w'), Ok tt) /\
    least O q cmin /\ cmin <= f_chisq o' /\ cmem (w_st w') 8 = f_p o' 1.
Proof.
  destruct (scale_refined row2 [half_empty] [set2 y] mem2 h2 34 o row2_apart blocks2 scales2 (ready2 y) eq_refl (weights2 y)) as (f0 & X). destruct (matters2 y o) as (f1 & Y).
  exists (Nat.max f0 f1). intros fuel Hf toler lfuel tx ly0 pdf0 LF O. destruct (X fuel ltac:(lia)) as (ds0 & E0 & Z). specialize (Y fuel ltac:(lia) ds0 E0).
  destruct (Z toler lfuel false c_new tx (or_introl eq_refl) LF Y) as (c' & x' & q & cmin & R & L & _ & _ & _ & _ & B & _).
  destruct (session_same row2 fuel [half_empty] [set2 y] 34 mem2 h2 toler lfuel false c_new tx pdf0 ly0 o row2_apart blocks2 con_ok2 nodup2 solv2 (or_introl eq_refl)) as (w' & b & c2 & tx' & o' & r & R1 & R2 & S).
  rewrite R in R1. inversion R1; subst. exists c2, tx', o', w', q, cmin. split. exact R2. split. exact L. split. apply B.
  destruct (S eq_refl) as ((S0 & S1 & S2 & S3) & S4 & _). destruct (S4 8%nat (KPar KIdent 1) eq_refl) as (x & Ex & [E _]). 
  rewrite E.
  - cbn [con_val] in Ex. change (crun (Rnum Rlit) Rbuiltins (cinit mem2) (map to_cop h2)) with st2 in *. rewrite st2_is in S0, S1, S2. cbn [ctab pval pid length] in S0, S1.
    unfold env_of, getpar, parfind in Ex. rewrite S1 in Ex. cbn - [nth_error] in Ex. rewrite S3 in Ex by lia. inversion Ex. reflexivity.
  - intros icc (ip & p & ia & k & _ & _ & K & E8 & _). cbn in E8. destruct k as [|[|[|k]]]; lia.
Qed.

Lemma settled_tab addr fuel ph sets cs st st' pdf p : settled addr Nm Rbuiltins fuel ph sets cs st st' pdf p -> ctab st' = ctab (with_pars st p).
Proof.
  intros ((L & I & F & E) & _). unfold with_pars. cbn [ctab]. destruct (ctab st') as [v f i]. cbn [pval pfree pid] in *. subst f i. f_equal. rewrite <- L. clear L.
  apply nth_ext with (d := 0) (d' := p 0%nat). rewrite map_length, seq_length. auto. intros k Hk. rewrite map_nth, seq_nth by auto. apply nth_error_nth. apply E. auto.
Qed.
Lemma scale_no_coordinate addr ph nset ip icc : apart addr (atoms_in ph) nset -> (ip < length ph)%nat -> ~ coordinate addr ph (addr (PV ip FPscale)) icc.
Proof.
  intros AP Hip (i & p & ia & k & Ep & Hia & Hk & E & _). assert (Hi : (i < length ph)%nat) by (apply nth_error_Some; congruence).
  assert (X : PV ip FPscale = AV i ia (FPos k)); [|discriminate X]. apply AP; auto; cbn.
  - split; auto. unfold atoms_in. rewrite map_length. auto.
  - unfold atoms_in. rewrite map_length. split; auto. split; auto. erewrite (nth_error_nth (map _ _)). 2:{ apply map_nth_error. eassumption. } auto.
Qed.
Theorem scale_memory addr ph sets mem (h : list (uop R)) npar o : let st := crun Nm Rbuiltins (cinit mem) (map to_cop h) in
  apart addr (atoms_in ph) (length sets) -> blocks_ok ph -> scales_only addr (length ph) st (ucons h) ->
  ready addr ph sets (cmem st) -> npar = (phase_size (atoms_in ph) + 3 * length sets)%nat -> (forall s i, In s sets -> 0 <= ts_w s i) ->
  exists f0, forall fuel, (f0 <= fuel)%nat -> exists ds0, let O := theory_object addr Nm Rbuiltins fuel ph sets npar st o in
  f_theory O (pars_of st) = Ok ds0 /\ forall toler lfuel running c tx ly0 pdf0, fresh running c -> (101 <= lfuel)%nat -> ~ dependent O ds0 ->
  exists c' tx' o' w' q cmin, world_refine addr Nm Rbuiltins fuel ph sets npar toler lfuel running c (tx, O, mkW st ly0 pdf0) = (false, c', (tx', o', w'), Ok tt) /\
    least O q cmin /\ spread O ds0 (f_p o') q <= spread O ds0 (f_p O) q /\
    cmin <= f_chisq o' <= cmin + / 10 ^ (c_iter c' + 2) / 4 * spread O ds0 (f_p O) q /\
    forall ip, (ip < length ph)%nat -> cmem (w_st w') (addr (PV ip FPscale)) = scale_of addr st (ucons h) (f_p o') ip.
Proof.
  intros st AP BO SO RD NP W. destruct (scale_refined addr ph sets mem h npar o AP BO SO RD NP W) as (f0 & X). exists f0. intros fuel Hf. destruct (X fuel Hf) as (ds0 & E0 & Z). exists ds0. intros O. split. exact E0.
  intros toler lfuel running c tx ly0 pdf0 FR LF ND. destruct (Z toler lfuel running c tx FR LF ND) as (c' & x' & q & cmin & R & L & _ & _ & _ & SP & B & _). fold st O in R.
  assert (CO : Forall (fun ac => con_ok (snd ac)) (ucons h)). { apply Forall_forall. intros [a k] I. apply (proj2 SO a k I). }
  assert (AF : forall a k p, In (a, k) (ucons h) -> con_meaning (env_of (ctab (with_pars st p))) k <> None).
  { intros a k p I. destruct (proj2 SO a k I) as (_ & _ & _ & w0 & w & Q). rewrite (proj2 (Q p)). discriminate. }
  assert (V : solvable Nm Rbuiltins st (ucons h)). { intros a k I. rewrite <- con_meaning_val. rewrite <- (with_own st (pars_of st)) by auto. apply (AF a k _ I). }
  destruct (session_same addr fuel ph sets npar mem h toler lfuel running c tx pdf0 ly0 o AP BO CO (proj1 SO) V FR) as (w' & b & c2 & tx' & o' & r & R1 & R2 & S). fold st O in R1, R2, S.
  rewrite R in R1. inversion R1; subst. cbn [snd] in *. exists c2, tx', o', w', q, cmin. split. exact R2. split. exact L. split. exact SP. split. exact B.
  intros ip Hip. specialize (S eq_refl). pose proof (settled_tab _ _ _ _ _ _ _ _ _ S) as TB. destruct S as (_ & S4 & S5 & _). unfold scale_of.
  destruct (last_con (addr (PV ip FPscale)) (ucons h)) as [k|] eqn:EL.
  - destruct (S4 _ _ EL) as (x & Ex & [Q _]). rewrite Q by (intros; eapply scale_no_coordinate; eauto). rewrite TB, <- con_meaning_val in Ex. rewrite Ex. auto.
  - destruct (S5 _ (last_con_none _ _ EL)) as [Q _]. apply Q. intros; eapply scale_no_coordinate; eauto.
Qed.
Lemma dinv2 : ConReal.dinv Nm st2 (ucons h2).
Proof. apply dinv_run. apply con_ok2. apply nodup2. Qed.
